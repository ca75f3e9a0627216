(** What the properties of the MCTS tuner mean (C40 - C42, C49). *)
From Coq Require Import QArith.
From Verif Require Import Base Bytes PyStr Dict SchedModel SchedSpec MctsModel.
Open Scope Z_scope.

(** ** C40: cells of the parameter space *)

(** Positions of the children within their parent: one number for each dimension; they are
    counted with the last dimension changing fastest. *)
Definition product (splits : list nat) : nat := fold_right Nat.mul 1%nat splits.
Fixpoint rank (splits coords : list nat) : nat :=
  match splits, coords with
  | _ :: splits', c :: coords' => (c * product splits' + rank splits' coords')%nat
  | _, _ => O
  end.
Definition is_child (splits : list nat) (i : nat) (coords : list nat) : Prop :=
  Forall2 lt coords splits /\ rank splits coords = i.

(** A cell is a product of half-open intervals. *)
Definition interval := (Q * Q)%type.
Definition within (x : Q) (i : interval) : Prop := (fst i <= x < snd i)%Q.
Definition middle (x : Q) (i : interval) : Prop := (x == (fst i + snd i) / 2)%Q.
(** Part number [c] of an interval divided into [s] equal parts. *)
Definition part (s c : nat) (i j : interval) : Prop :=
  (fst j == fst i + (snd i - fst i) * (qn c / qn s))%Q /\
  (snd j == fst i + (snd i - fst i) * (qn (S c) / qn s))%Q.
Inductive parts : list nat -> list nat -> list interval -> list interval -> Prop :=
| parts_nil : parts [] [] [] []
| parts_cons s c i j splits coords r r' :
    part s c i j -> parts splits coords r r' -> parts (s :: splits) (c :: coords) (i :: r) (j :: r').

(** [cell splits r path r']: following [path] from the cell [r] leads to the cell [r']. *)
Inductive cell (splits : list nat) : list interval -> list nat -> list interval -> Prop :=
| cell_here r : cell splits r [] r
| cell_child r i coords r' path r'' :
    is_child splits i coords -> parts splits coords r r' -> cell splits r' path r'' ->
    cell splits r (i :: path) r''.
Definition unit_cube (splits : list nat) : list interval := map (fun _ => (0, 1)%Q) splits.
Definition cell_of (splits : list nat) (path : list nat) (r : list interval) : Prop :=
  cell splits (unit_cube splits) path r.

(** ** C41: choosing and counting *)

(** Child [i] of [x] is as urgent as any. *)
Definition most_urgent (less : Z -> Z * Z -> Z * Z -> bool) (x : node) (i : nat) : Prop :=
  exists cs c, n_children x = Some cs /\ nth_error cs i = Some c /\
    forall j c', nth_error cs j = Some c' -> less (n_visits x) (stats c) (stats c') = false.
(** Child [i] of [x] is the first of those with most wins. *)
Definition most_wins (x : node) (i : nat) : Prop :=
  exists cs c, n_children x = Some cs /\ nth_error cs i = Some c /\
    forall j c', nth_error cs j = Some c' -> n_wins c' <= n_wins c /\ ((j < i)%nat -> n_wins c' < n_wins c).
Inductive descends (best : node -> nat -> Prop) : node -> list nat -> Prop :=
| desc_leaf x : n_children x = None -> descends best x []
| desc_step x cs i c path :
    n_children x = Some cs -> best x i -> nth_error cs i = Some c -> descends best c path ->
    descends best x (i :: path).

(** A comparison by a key which is totally ordered. *)
Definition strict_order {A} (less : A -> A -> bool) : Prop :=
  (forall x, less x x = false) /\
  (forall x y, less x y = true -> less y x = false) /\
  (forall x y z, less x y = false -> less y z = false -> less x z = false).

(** The finished games: number, and the path and whether the candidate won; None for a failed
    game.  The games in progress, with their paths. *)
Record ledger : Type := mkL {
  l_done : list (nat * option (list nat * bool));
  l_out : list (nat * list nat);
  l_trouble : bool   (* there was no success since the start or since the last failure *)
}.
Definition prefix (p q : list nat) : Prop := exists r, q = p ++ r.
Definition prefixb (p q : list nat) : bool := if list_eq_dec Nat.eq_dec p (firstn (List.length p) q) then true else false.
Definition passes_through (p : list nat) (d : nat * option (list nat * bool)) : bool :=
  match snd d with Some (q, _) => prefixb p q | None => false end.
Definition won_through (p : list nat) (d : nat * option (list nat * bool)) : bool :=
  match snd d with Some (q, w) => prefixb p q && w | None => false end.
Definition ended_at (p : list nat) (d : nat * option (list nat * bool)) : bool :=
  match snd d with Some (q, _) => if list_eq_dec Nat.eq_dec p q then true else false | None => false end.
Definition wins_at (p : list nat) (d : nat * option (list nat * bool)) : bool :=
  match snd d with Some (q, w) => (if list_eq_dec Nat.eq_dec p q then true else false) && w | None => false end.
Definition zsum (l : list Z) : Z := fold_right Z.add 0 l.
Definition count {A} (f : A -> bool) (l : list A) : Z := Z.of_nat (List.length (filter f l)).

(** The statistics are those of the finished games. *)
Definition shows (tp : tparams) (root : node) (l : ledger) : Prop :=
  (forall p x, node_at p root = Some x ->
     n_visits x = tp_initial_visits tp + count (passes_through p) (l_done l) /\
     n_wins x = tp_initial_wins tp + count (won_through p) (l_done l)) /\
  (forall n q w, In (n, Some (q, w)) (l_done l) -> node_at q root <> None) /\
  (forall n q, In (n, q) (l_out l) -> node_at q root <> None).

(** Events, and what is seen of them. *)
Section Events.
Context {P : Type}.
Inductive mevent : Type :=
| MGet (answer : res (option (mjob P))) (path : option (list nat))
| MResult (r : mresponse) (answer : res unit)
| MError (number : nat) (answer : res (bool * bool))
| MSave                   (* the status is written *)
| MRestart.               (* the process is lost; the last saved status is loaded *)

Definition number_taken (l : ledger) (n : nat) : Prop := In n (map fst (l_done l)) \/ In n (map fst (l_out l)).
Definition next_number (l : ledger) (n : nat) : Prop :=
  ~ number_taken l n /\ forall m, (m < n)%nat -> number_taken l m.
Definition games_begun (l : ledger) : Z := Z.of_nat (List.length (l_done l)) + Z.of_nat (List.length (l_out l)).
Definition limit_reached (limit : option Z) (l : ledger) : Prop :=
  match limit with Some n => n <= games_begun l | None => False end.
Definition path_ok (tp : tparams) (path : list nat) : Prop :=
  (1 <= List.length path <= tp_max_depth tp)%nat /\ Forall (fun i => (i < product (tp_splits tp))%nat) path.

(** The opponent lost. *)
Definition candidate_won (opponent : bytes) (r : mresponse) (w : bool) : Prop :=
  (w = true <-> mr_loser r = Some opponent).

(** A game for candidate number [n]. *)
Definition job_for {V} (cf : mconfig V P) (n : nat) (path : list nat) (j : mjob P) : Prop :=
  exists params engine_params p,
    parameters_for_path (mc_tree cf) path = Ok params /\
    Forall2 (fun fx v => (fst fx) (snd fx) = Some v) (combine (mc_scales cf) params) engine_params /\
    mc_maker cf engine_params = Some p /\
    mj_id j = str_int (Z.of_nat n) /\ mj_data j = n /\
    let candidate := (str "#" ++ str_int (Z.of_nat n), p) in
    let opponent := (mc_opponent cf, mc_opponent_player cf) in
    ((mj_black j = candidate /\ mj_white j = opponent /\ mc_colour cf <> Some White) \/
     (mj_black j = opponent /\ mj_white j = candidate /\ mc_colour cf <> Some Black)).

(** The present ledger, and the saved one. *)
Inductive mstep {V} (cf : mconfig V P) : ledger * ledger -> mevent -> ledger * ledger -> Prop :=
| ms_get l v n path j :
    ~ limit_reached (mc_number_of_games cf) l -> next_number l n -> path_ok (mc_tree cf) path -> job_for cf n path j ->
    mstep cf (l, v) (MGet (Ok (Some j)) (Some path)) (mkL (l_done l) ((n, path) :: l_out l) (l_trouble l), v)
| ms_none l v : limit_reached (mc_number_of_games cf) l -> mstep cf (l, v) (MGet (Ok None) None) (l, v)
| ms_result l v r o1 path o2 w :
    dget (mc_opponent cf) (mr_descriptions r) <> None -> l_out l = o1 ++ (mr_data r, path) :: o2 -> candidate_won (mc_opponent cf) r w ->
    mstep cf (l, v) (MResult r (Ok tt)) (mkL ((mr_data r, Some (path, w)) :: l_done l) (o1 ++ o2) false, v)
| ms_error l v n o1 path o2 :
    l_out l = o1 ++ (n, path) :: o2 ->
    mstep cf (l, v) (MError n (Ok (l_trouble l, false))) (mkL ((n, None) :: l_done l) (o1 ++ o2) true, v)
| ms_save l v : mstep cf (l, v) MSave (l, l)
| ms_restart l v : mstep cf (l, v) MRestart (mkL (l_done v) [] true, v)
(** Responses for games which aren't in progress, or without the opponent's description. *)
| ms_bad_result l v r :
    (~ In (mr_data r) (map fst (l_out l)) \/ dget (mc_opponent cf) (mr_descriptions r) = None) ->
    mstep cf (l, v) (MResult r (Err KeyError)) (mkL (l_done l) (l_out l) false, v)
| ms_bad_error l v n :
    ~ In n (map fst (l_out l)) -> mstep cf (l, v) (MError n (Err KeyError)) (l, v).
Inductive msteps {V} (cf : mconfig V P) : ledger * ledger -> list mevent -> ledger * ledger -> Prop :=
| mss_nil s : msteps cf s [] s
| mss_cons s e s1 es s2 : mstep cf s e s1 -> msteps cf s1 es s2 -> msteps cf s (e :: es) s2.
Definition empty_ledger : ledger := mkL [] [] true.

(** Control files that are considered: the user's functions don't fail. *)
Definition usable {V} (cf : mconfig V P) : Prop :=
  Forall (fun s => (1 <= s)%nat) (tp_splits (mc_tree cf)) /\
  (1 <= tp_max_depth (mc_tree cf))%nat /\
  (forall f q, In f (mc_scales cf) -> f q <> None) /\
  (forall l, mc_maker cf l <> None).
End Events.
Arguments mevent : clear implicits.

(** The driver: calls, with what is seen of them. *)
Section Driver.
Context {V P : Type}.
Variable veqb : V -> V -> bool.
Variable less : Z -> Z * Z -> Z * Z -> bool.
Inductive mcall : Type := CGet | CResult (r : mresponse) | CError (number : nat) | CSave | CRestart (random : nat -> nat).
(** The process's random numbers. *)
Definition with_random (random : nat -> nat) (cf : mconfig V P) : mconfig V P :=
  mkMC (mc_tree cf) (mc_scales cf) (mc_maker cf) (mc_opponent cf) (mc_opponent_player cf)
       (mc_number_of_games cf) (mc_colour cf) random.
Definition mdo (cf : mconfig V P) (s : tuner V P * option (mstatus V)) (c : mcall)
  : option (tuner V P * option (mstatus V) * mevent P) :=
  let (t, st) := s in
  match c with
  | CGet => let (t', a) := get_game less t in
      Some (t', st, MGet a (match a with Ok (Some j) => iget (mj_data j) (mt_sims t') | _ => None end))
  | CResult r => let (t', a) := process_game_result r t in Some (t', st, MResult r a)
  | CError n => let (t', a) := process_game_error n t in Some (t', st, MError n a)
  | CSave => match get_status t with Ok st' => Some (t, Some st', MSave) | Err _ => None end
  | CRestart random =>
      match st with
      | None => Some (set_clean_status (with_random random cf), st, MRestart)
      | Some st1 => match set_status veqb (with_random random cf) st1 with Ok t' => Some (t', st, MRestart) | Err _ => None end
      end
  end.
(** None: get_status or set_status raised an exception. *)
Fixpoint mrun (cf : mconfig V P) (s : tuner V P * option (mstatus V)) (cs : list mcall)
  : option (tuner V P * option (mstatus V) * list (mevent P)) :=
  match cs with
  | [] => Some (s, [])
  | c :: rest =>
      match mdo cf s c with
      | None => None
      | Some (s1, e) => match mrun cf s1 rest with None => None | Some (s2, es) => Some (s2, e :: es) end
      end
  end.
End Driver.
