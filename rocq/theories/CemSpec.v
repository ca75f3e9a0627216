(** What the cross-entropy tuner's properties mean (C43). *)
From Coq Require Import QArith.
From Verif Require Import Base Bytes PyStr CemModel.
Open Scope Z_scope.

(** ** The elites *)
(** Candidate [i] comes before candidate [j]: it has more points, or as many and a higher
    number. *)
Definition better (points : list Z) (i j : nat) : Prop :=
  exists a b, nth_error points i = Some a /\ nth_error points j = Some b /\ (b < a \/ (a = b /\ (j < i)%nat)).

(** [n] is the proportion [p] of [samples], to the nearest integer (halves up), but at least
    one. *)
Definition nearest_count (p : Q) (samples n : nat) : Prop :=
  let x := (p * inject_Z (Z.of_nat samples))%Q in
  let q := inject_Z (Z.of_nat n) in
  (1 <= n)%nat /\ (x < q + (1 # 2))%Q /\ ((q - (1 # 2) <= x)%Q \/ n = 1%nat).

Definition elites_of (p : Q) (points : list Z) (elites : list nat) : Prop :=
  NoDup elites /\ (forall i, In i elites -> (i < List.length points)%nat) /\
  nearest_count p (List.length points) (List.length elites) /\
  (forall i j, In i elites -> (j < List.length points)%nat -> ~ In j elites -> better points i j).

(** ** The new distribution *)
Definition total (l : list Q) : Q := fold_right Qplus 0%Q l.
Definition mean_of (v : list Q) (m : Q) : Prop := (m * inject_Z (Z.of_nat (List.length v)) == total v)%Q.
(** The mean squared deviation from the mean. *)
Definition variance_of (v : list Q) (s : Q) : Prop :=
  exists m, mean_of v m /\ mean_of (map (fun x => (x - m) * (x - m))%Q v) s.

Definition mixed (step : Q) (old : Q * Q) (v : list Q) (new : Q * Q) : Prop :=
  exists m s, mean_of v m /\ variance_of v s /\
    (fst new == (1 - step) * fst old + step * m)%Q /\ (snd new == (1 - step) * snd old + step * s)%Q.

(** [elites]: the elite candidates' parameters. *)
Definition updated (step : Q) (old : distribution) (elites : list (list Q)) (new : distribution) : Prop :=
  List.length new = List.length old /\
  forall d o n, nth_error old d = Some o -> nth_error new d = Some n ->
    exists v, Forall2 (fun e x => nth_error e d = Some x) elites v /\ mixed step o v n.

(** ** Generations *)
(** The present generation: its number, distribution and samples; the finished games
    (candidate, round, half points for the candidate) and those in progress (candidate,
    round); whether a game has been successful in this run. *)
Record cledger : Type := mkCL {
  cl_gen : nat;
  cl_dist : distribution;
  cl_samples : list (list Q);
  cl_done : list (nat * nat * Z);
  cl_out : list (nat * nat);
  cl_seen : bool
}.
Definition game_of (g : nat * nat * Z) : nat * nat := fst g.
(** All games begun. *)
Definition games (l : cledger) : list (nat * nat) := map game_of (cl_done l) ++ cl_out l.
Definition of_candidate (i : nat) (g : nat * nat) : bool := Nat.eqb (fst g) i.
Definition begun (l : cledger) (i : nat) : Z := Z.of_nat (List.length (filter (of_candidate i) (games l))).
Definition finished (l : cledger) (i : nat) : Z := Z.of_nat (List.length (filter (of_candidate i) (map game_of (cl_done l)))).
Definition points (l : cledger) (i : nat) : Z :=
  fold_right Z.add 0 (map snd (filter (fun g => of_candidate i (game_of g)) (cl_done l))).

Section Events.
Context {V P : Type}.
(** [possible mean variance x]: [x] is a possible outcome of the Gaussian distribution. *)
Variable possible : Q -> Q -> Q -> Prop.
Variable cf : cconfig V P.

Definition all_points (l : cledger) : list Z := map (points l) (seq 0 (cc_samples cf)).
Definition is_complete (l : cledger) : Prop := forall i, (i < cc_samples cf)%nat -> cc_batch_size cf <= finished l i.

(** The next game: for the candidate with the fewest games, the first of these; the round is
    the first that isn't in use. *)
Definition next_game (l : cledger) (i t : nat) : Prop :=
  (i < cc_samples cf)%nat /\ begun l i < cc_batch_size cf /\
  (forall j, (j < cc_samples cf)%nat -> begun l j < cc_batch_size cf ->
     begun l i <= begun l j /\ ((j < i)%nat -> begun l i < begun l j)) /\
  ~ In (i, t) (games l) /\ (forall u, (u < t)%nat -> In (i, u) (games l)).

Definition drawn (d : distribution) (samples : list (list Q)) : Prop :=
  List.length samples = cc_samples cf /\
  forall s, In s samples -> Forall2 (fun p x => possible (fst p) (snd p) x) d s.

(** 'g0#1', and 'g0#1r3'. *)
Definition candidate_code (g i : nat) : bytes := str "g" ++ str_int (Z.of_nat g) ++ str "#" ++ str_int (Z.of_nat i).
Definition game_id (g i t : nat) : bytes := candidate_code g i ++ str "r" ++ str_int (Z.of_nat t).

(** A game for candidate [i], in round [t]. *)
Definition job_for (l : cledger) (i t : nat) (j : cjob P) : Prop :=
  exists sample engine_params p,
    nth_error (cl_samples l) i = Some sample /\
    Forall2 (fun fx v => (fst fx) (snd fx) = Some v) (combine (cc_transforms cf) sample) engine_params /\
    cc_maker cf engine_params = Some p /\
    cj_id j = game_id (cl_gen l) i t /\ cj_data j = (i, candidate_code (cl_gen l) i, t) /\
    let candidate := (candidate_code (cl_gen l) i, p) in
    let opponent := (cc_opponent cf, cc_opponent_player cf) in
    ((cj_black j = candidate /\ cj_white j = opponent /\ cc_colour cf <> Some White) \/
     (cj_black j = opponent /\ cj_white j = candidate /\ cc_colour cf <> Some Black)).

(** A win is two half points, a game without a winner one. *)
Definition half_points (r : cresponse) (n : Z) : Prop :=
  let '(_, code, _) := cr_data r in
  (cr_winner r = Some code /\ n = 2) \/ (cr_winner r = None /\ n = 1) \/ (cr_winner r <> None /\ cr_winner r <> Some code /\ n = 0).

(** Events, and what is seen of them. *)
Inductive cevent : Type :=
| CGot (answer : res (option (cjob P)))
| CResulted (r : cresponse) (answer : res unit)
| CFailed (previous_errors : Z) (answer : res (bool * bool))
| CSaved                    (* the status is written *)
| CRestarted.               (* the process is lost; the last saved status is loaded *)

Definition begin_game (i t : nat) (l : cledger) : cledger :=
  mkCL (cl_gen l) (cl_dist l) (cl_samples l) (cl_done l) ((i, t) :: cl_out l) (cl_seen l).
Definition end_game (i t : nat) (n : Z) (out : list (nat * nat)) (l : cledger) : cledger :=
  mkCL (cl_gen l) (cl_dist l) (cl_samples l) ((i, t, n) :: cl_done l) out true.

(** The new distribution at the end of a generation. *)
Definition learned (l : cledger) (d : distribution) : Prop :=
  exists elites samples, elites_of (cc_elite_proportion cf) (all_points l) elites /\
    Forall2 (fun i s => nth_error (cl_samples l) i = Some s) elites samples /\
    updated (cc_step_size cf) (cl_dist l) samples d.

(** The present state of affairs, and the saved one. *)
Inductive cstep : cledger * option cledger -> cevent -> cledger * option cledger -> Prop :=
| cs_get l v i t j : next_game l i t -> job_for l i t j ->
    cstep (l, v) (CGot (Ok (Some j))) (begin_game i t l, v)
| cs_none l v : (forall i, (i < cc_samples cf)%nat -> cc_batch_size cf <= begun l i) ->
    cstep (l, v) (CGot (Ok None)) (l, v)
(** A result which doesn't end the generation; one which does, and is followed by another
    generation; and the last one. *)
| cs_result l v r i code t n o1 o2 l1 :
    cr_data r = (i, code, t) -> cl_out l = o1 ++ (i, t) :: o2 -> half_points r n ->
    l1 = end_game i t n (o1 ++ o2) l -> ~ is_complete l1 ->
    cstep (l, v) (CResulted r (Ok tt)) (l1, v)
| cs_generation l v r i code t n l1 d samples :
    cr_data r = (i, code, t) -> cl_out l = [(i, t)] -> half_points r n ->
    l1 = end_game i t n [] l -> is_complete l1 -> learned l1 d ->
    S (cl_gen l) <> cc_generations cf -> drawn d samples ->
    cstep (l, v) (CResulted r (Ok tt)) (mkCL (S (cl_gen l)) d samples [] [] true, v)
| cs_last l v r i code t n l1 d :
    cr_data r = (i, code, t) -> cl_out l = [(i, t)] -> half_points r n ->
    l1 = end_game i t n [] l -> is_complete l1 -> learned l1 d ->
    S (cl_gen l) = cc_generations cf ->
    cstep (l, v) (CResulted r (Ok tt)) (mkCL (S (cl_gen l)) d (cl_samples l1) (cl_done l1) [] true, v)
(** A response for a game which isn't in progress. *)
| cs_bad_result l v r i code t :
    cr_data r = (i, code, t) -> ~ In (i, t) (cl_out l) ->
    cstep (l, v) (CResulted r (Err KeyError)) (mkCL (cl_gen l) (cl_dist l) (cl_samples l) (cl_done l) (cl_out l) true, v)
(** A failed game: stop if nothing has been successful in this run, or it had failed before;
    otherwise try it again. *)
| cs_stop l v n : cl_seen l = false \/ n > 0 -> cstep (l, v) (CFailed n (Ok (true, false))) (l, v)
| cs_retry l v n : cl_seen l = true -> n <= 0 -> cstep (l, v) (CFailed n (Ok (false, true))) (l, v)
| cs_save l v : cstep (l, v) CSaved (l, Some l)
| cs_restart l v : cstep (l, Some v) CRestarted (mkCL (cl_gen v) (cl_dist v) (cl_samples v) (cl_done v) [] false, Some v)
| cs_restart_clean l samples : drawn (cc_initial cf) samples ->
    cstep (l, None) CRestarted (mkCL 0 (cc_initial cf) samples [] [] false, None).

Inductive csteps : cledger * option cledger -> list cevent -> cledger * option cledger -> Prop :=
| css_nil s : csteps s [] s
| css_cons s e s1 es s2 : cstep s e s1 -> csteps s1 es s2 -> csteps s (e :: es) s2.

(** The start of a competition. *)
Definition initial (l : cledger) : Prop := exists samples, drawn (cc_initial cf) samples /\ l = mkCL 0 (cc_initial cf) samples [] [] false.

(** Control files that are accepted, with functions that don't fail. *)
Definition cusable : Prop :=
  cc_initial cf <> [] /\ Forall (fun p => 0 <= snd p)%Q (cc_initial cf) /\
  List.length (cc_transforms cf) = List.length (cc_initial cf) /\
  (forall f q, In f (cc_transforms cf) -> f q <> None) /\ (forall l, cc_maker cf l <> None) /\
  1 <= cc_batch_size cf /\ (1 <= cc_samples cf)%nat /\ (1 <= cc_generations cf)%nat /\
  (0 < cc_elite_proportion cf < 1)%Q /\ (0 < cc_step_size cf < 1)%Q.

End Events.
Arguments cevent : clear implicits.

(** The driver: calls, with what is seen of them. *)
Section Driver.
Context {V P : Type}.
Inductive ccall : Type :=
| DGet | DResult (r : cresponse) | DError (previous_errors : Z) | DSave
| DRestart (gauss : nat -> Q -> Q -> Q) (coin : nat -> bool).
(** The process's random numbers. *)
Definition with_random (gauss : nat -> Q -> Q -> Q) (coin : nat -> bool) (cf : cconfig V P) : cconfig V P :=
  mkCC (cc_initial cf) (cc_transforms cf) (cc_maker cf) (cc_opponent cf) (cc_opponent_player cf)
       (cc_batch_size cf) (cc_samples cf) (cc_generations cf) (cc_elite_proportion cf) (cc_step_size cf)
       (cc_colour cf) gauss coin.
Definition cdo (cf : cconfig V P) (s : ctuner V P * option cstatus) (c : ccall)
  : option (ctuner V P * option cstatus * cevent P) :=
  let (t, st) := s in
  match c with
  | DGet => let (t', a) := get_game t in Some (t', st, CGot a)
  | DResult r => let (t', a) := process_game_result r t in Some (t', st, CResulted r a)
  | DError n => let (t', a) := process_game_error n t in Some (t', st, CFailed n a)
  | DSave => Some (t, Some (get_status t), CSaved)
  | DRestart gauss coin =>
      match st with
      | None => match set_clean_status (with_random gauss coin cf) with Ok t' => Some (t', st, CRestarted) | Err _ => None end
      | Some st1 => match set_status (with_random gauss coin cf) st1 with Ok t' => Some (t', st, CRestarted) | Err _ => None end
      end
  end.
(** None: set_clean_status or set_status raised an exception. *)
Fixpoint crun (cf : cconfig V P) (s : ctuner V P * option cstatus) (cs : list ccall)
  : option (ctuner V P * option cstatus * list (cevent P)) :=
  match cs with
  | [] => Some (s, [])
  | c :: rest =>
      match cdo cf s c with
      | None => None
      | Some (s1, e) => match crun cf s1 rest with None => None | Some (s2, es) => Some (s2, e :: es) end
      end
  end.
(** The calls that are considered: the candidate was one of the players; the random numbers
    are possible. *)
Definition call_ok (possible : Q -> Q -> Q -> Prop) (c : ccall) : Prop :=
  match c with
  | DResult r => let '(_, code, _) := cr_data r in code = cr_black r \/ code = cr_white r
  | DRestart gauss _ => forall k m v, possible m v (gauss k m v)
  | _ => True
  end.
End Driver.
