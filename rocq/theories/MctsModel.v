(** Model of gomill/mcts_tuners.py: the parameter tree, simulations, scale functions and the
    tuner's scheduling.  Python floats are exact rationals here: rounding isn't modelled. *)
From Coq Require Import QArith Qround.
From Verif Require Import Base Bytes PyStr Dict SchedModel.
Open Scope Z_scope.

(** competitions.py:16-24. *)
Definition CompetitionError : exn := OtherError 131.

(** * The tree (mcts_tuners.py:20-56 Node): [children], [wins], [visits].  [value] and
    [rsqrt_visits] are functions of wins and visits (:36-39 [recalculate]). *)
Inductive node : Type := Node (children : option (list node)) (wins visits : Z).
Definition n_children (x : node) : option (list node) := let 'Node c _ _ := x in c.
Definition n_wins (x : node) : Z := let 'Node _ w _ := x in w.
Definition n_visits (x : node) : Z := let 'Node _ _ v := x in v.

(** :31-34 [count_tree_size]. *)
Fixpoint count_tree_size (x : node) : nat :=
  match x with
  | Node None _ _ => 1
  | Node (Some cs) _ _ => S (list_sum (map count_tree_size cs))
  end.

(** :60-118 the Tree's parameters; splits and depths are positive (settings :557-563, 408). *)
Record tparams : Type := mkTP {
  tp_splits : list nat;
  tp_max_depth : nat;
  tp_initial_visits : Z;
  tp_initial_wins : Z
}.

(** :94 [branching_factor]. *)
Definition branching (splits : list nat) : nat := fold_left Nat.mul splits 1%nat.

(** :111-117 the body of the loop filling [_cube_coordinates]. *)
Fixpoint divmods (i : nat) (rsplits : list nat) : list nat :=
  match rsplits with
  | [] => []
  | split :: rest => (i mod split)%nat :: divmods (i / split)%nat rest
  end.
Definition coordinates (splits : list nat) (child_index : nat) : list nat :=
  rev (divmods child_index (rev splits)).

(** :109-118 [_cube_coordinates]. *)
Definition cube_coordinates (splits : list nat) : list (list nat) :=
  map (coordinates splits) (seq 0 (branching splits)).

(** :145-158 [expand]: the new children. *)
Definition fresh (tp : tparams) : node := Node None (tp_initial_wins tp) (tp_initial_visits tp).
Definition expanded (tp : tparams) (x : node) : node :=
  Node (Some (repeat (fresh tp) (branching (tp_splits tp)))) (n_wins x) (n_visits x).

(** :120-129 [new_root]. *)
Definition new_root (tp : tparams) : node := expanded tp (fresh tp).

(** :131-144 [set_root]. *)
Definition set_root (tp : tparams) (x : node) : res node :=
  match n_children x with
  | None | Some [] => Err ValueError
  | Some cs => if Nat.eqb (List.length cs) (branching (tp_splits tp)) then Ok x else Err ValueError
  end.

(** :160-162 [is_ripe]. *)
Definition is_ripe (tp : tparams) (x : node) : bool := negb (n_visits x =? tp_initial_visits tp).

Definition qn (n : nat) : Q := inject_Z (Z.of_nat n).
Fixpoint zip_with {A B C} (f : A -> B -> C) (a : list A) (b : list B) : list C :=
  match a, b with x :: a', y :: b' => f x y :: zip_with f a' b' | _, _ => [] end.

(** :164-182 [parameters_for_path]; [lo] and [breadths] are the local variables. *)
Fixpoint path_loop (tp : tparams) (lo breadths : list Q) (choice_path : list nat) : res (list Q) :=
  match choice_path with
  | [] => Ok (zip_with (fun f breadth => f + (1 # 2) * breadth)%Q lo breadths)
  | child_index :: rest =>
      match nth_error (cube_coordinates (tp_splits tp)) child_index with
      | None => Err IndexError
      | Some cube_pos =>
          let breadths' := zip_with (fun f split => f / qn split)%Q breadths (tp_splits tp) in
          let lo' := zip_with (fun l d => l + d)%Q lo (zip_with (fun b coord => b * qn coord)%Q breadths' cube_pos) in
          path_loop tp lo' breadths' rest
      end
  end.
Definition parameters_for_path (tp : tparams) (choice_path : list nat) : res (list Q) :=
  let dimensions := List.length (tp_splits tp) in
  path_loop tp (repeat 0%Q dimensions) (repeat 1%Q dimensions) choice_path.

(** * Simulations *)

Definition enumerate {A} (l : list A) : list (nat * A) := combine (seq 0 (List.length l)) l.
(** [max(l, key=...)]: the first of the greatest; [less]: comparing the keys. *)
Definition max_by {A} (less : A -> A -> bool) (l : list A) : option A :=
  match l with
  | [] => None
  | x :: l' => Some (fold_left (fun m y => if less m y then y else m) l' x)
  end.

(** The children [path] leads to. *)
Fixpoint node_at (path : list nat) (x : node) : option node :=
  match path with
  | [] => Some x
  | i :: rest =>
      match n_children x with
      | None => None
      | Some cs => match nth_error cs i with None => None | Some c => node_at rest c end
      end
  end.
Fixpoint replace_nth {A} (i : nat) (y : A) (l : list A) : list A :=
  match i, l with
  | _, [] => []
  | O, _ :: l' => y :: l'
  | S i', x :: l' => x :: replace_nth i' y l'
  end.
(** Changing the node object [path] leads to. *)
Fixpoint update_at (f : node -> node) (path : list nat) (x : node) : node :=
  match path with
  | [] => f x
  | i :: rest =>
      match n_children x with
      | None => x
      | Some cs =>
          match nth_error cs i with
          | None => x
          | Some c => Node (Some (replace_nth i (update_at f rest c) cs)) (n_wins x) (n_visits x)
          end
      end
  end.

Section Choice.
(** [less N (w, v) (w', v')]: for the child nodes of a node with [N] visits, the urgency of a
    child with [w] wins and [v] visits is less than that of one with [w'] wins and [v']
    visits (:309-321).  This may be any function here. *)
Variable less : Z -> Z * Z -> Z * Z -> bool.

Definition stats (x : node) : Z * Z := (n_wins x, n_visits x).

(** :309-321 [Simulation._choose_action]; [pick]: the random number.  ([max] of an empty list,
    or randrange(0), would be a ValueError.) *)
Definition choose_action (pick : nat) (x : node) : option (nat * node) :=
  match n_children x with
  | None => None
  | Some cs =>
      let start := (pick mod List.length cs)%nat in
      let children := enumerate cs in
      max_by (fun a b => less (n_visits x) (stats (snd a)) (stats (snd b)))
             (skipn start children ++ firstn start children)
  end.
End Choice.

(** :399-402 [Greedy_simulation._choose_action]. *)
Definition choose_greedy (x : node) : option (nat * node) :=
  match n_children x with
  | None => None
  | Some cs => max_by (fun a b => n_wins (snd a) <? n_wins (snd b)) (enumerate cs)
  end.

(** :323-329 [walk]: the choice path; [choose k]: the choice when [k] random numbers have been
    used. *)
Fixpoint walk (choose : nat -> node -> option (nat * node)) (k : nat) (x : node) : option (list nat) :=
  match x with
  | Node None _ _ => Some []
  | Node (Some cs) _ _ =>
      match choose k x with
      | None => None
      | Some (i, _) =>
          match nth_error (map (walk choose (S k)) cs) i with
          | Some (Some p) => Some (i :: p)
          | _ => None
          end
      end
  end.

(** :331-346 [run]: the tree, the number of nodes added, the number of random numbers used,
    and the choice path. *)
Definition sim_run (choose : nat -> node -> option (nat * node)) (tp : tparams) (k : nat) (root : node)
  : node * nat * nat * res (list nat) :=
  match walk choose k root with
  | None => (root, 0%nat, k, Err ValueError)
  | Some path =>
      let k' := (k + List.length path)%nat in
      match path with
      | [] => (root, 0%nat, k', Err IndexError)
      | _ =>
          match node_at path root with
          | None => (root, 0%nat, k', Err IndexError)
          | Some leaf =>
              if Nat.ltb (List.length path) (tp_max_depth tp) && is_ripe tp leaf then
                let root' := update_at (expanded tp) path root in
                let child_count := branching (tp_splits tp) in
                match choose k' (expanded tp leaf) with
                | None => (root', child_count, k', Err ValueError)
                | Some (i, _) => (root', child_count, S k', Ok (path ++ [i]))
                end
              else (root, 0%nat, k', Ok path)
          end
      end
  end.

(** :356-372 [update_stats]: the nodes on the path, and the root. *)
Definition visited (won : bool) (x : node) : node :=
  Node (n_children x) (if won then n_wins x + 1 else n_wins x) (n_visits x + 1).
Fixpoint update_stats (won : bool) (path : list nat) (x : node) : node :=
  let x' := visited won x in
  match path with
  | [] => x'
  | i :: rest =>
      match n_children x with
      | None => x'
      | Some cs =>
          match nth_error cs i with
          | None => x'
          | Some c => Node (Some (replace_nth i (update_stats won rest c) cs)) (n_wins x') (n_visits x')
          end
      end
  end.

(** :184-194 [retrieve_best_parameters]. *)
Definition retrieve_best_path (root : node) : option (list nat) := walk (fun _ => choose_greedy) 0 root.
Definition retrieve_best_parameters (tp : tparams) (root : node) : res (list Q) :=
  match retrieve_best_path root with
  | None => Err ValueError
  | Some path => parameters_for_path tp path
  end.

(** * Scale functions *)

(** Python's int() of a float: truncation towards zero. *)
Definition truncate (x : Q) : Z := if Qle_bool 0 x then Qfloor x else - Qfloor (- x).

(** :439-458 [Linear_scale_fn]. *)
Definition linear_scale (lower upper f : Q) : Q := (f * (upper - lower) + lower)%Q.
Definition linear_scale_integer (lower upper f : Q) : Z := truncate (linear_scale lower upper f + (1 # 2))%Q.

(** :482-498 [Explicit_scale_fn]: Python indexing, with negative indices. *)
Definition py_nth {A} (l : list A) (i : Z) : res A :=
  let n := Z.of_nat (List.length l) in
  let j := if i <? 0 then i + n else i in
  if (j <? 0) || (j >=? n) then Err IndexError
  else match nth_error l (Z.to_nat j) with Some x => Ok x | None => Err IndexError end.
Definition new_explicit_scale {A} (values : list A) : res (list A) :=
  match values with [] => Err ValueError | _ => Ok values end.
Definition explicit_scale {A} (values : list A) (f : Q) : res A :=
  py_nth values (truncate (qn (List.length values) * f)%Q).

(** * The tuner *)
Section Tuner.
(** [V]: the engine parameters (arbitrary Python objects; [veqb] compares them), [P]: what
    make_candidate returns. *)
Context {V P : Type}.
Variable veqb : V -> V -> bool.
Variable less : Z -> Z * Z -> Z * Z -> bool.

(** The settings (:537-563, 593-640).  [mc_scales]: the parameters' scale functions (None: an
    exception); [mc_maker]: the make_candidate function followed by
    game_jobs_player_from_config, None if there is an exception or the value isn't a Player;
    [mc_random]: the random numbers. *)
Record mconfig : Type := mkMC {
  mc_tree : tparams;
  mc_scales : list (Q -> option V);
  mc_maker : list V -> option P;
  mc_opponent : bytes;
  mc_opponent_player : P;
  mc_number_of_games : option Z;
  mc_colour : option colour;      (* None: 'random' *)
  mc_random : nat -> nat
}.

(** :641-647 the attributes. *)
Record tuner : Type := mkTuner {
  mt_conf : mconfig;
  mt_sched : ssched;
  mt_root : node;
  mt_count : nat;                    (* tree.node_count *)
  mt_sims : list (nat * list nat);   (* outstanding_simulations: the choice paths *)
  mt_halt : bool;
  mt_desc : option bytes;
  mt_used : nat                      (* random numbers used *)
}.

(** Game jobs (:767-785), without the game settings, which are copied from the control file. *)
Record mjob : Type := mkMJ {
  mj_id : bytes;
  mj_data : nat;
  mj_black : bytes * P;     (* the players' codes, and how to run them *)
  mj_white : bytes * P
}.
(** What is used of a game's response. *)
Record mresponse : Type := mkMR {
  mr_id : bytes;
  mr_data : nat;
  mr_loser : option bytes;       (* game_result.losing_player *)
  mr_descriptions : dict bytes   (* the engines' long descriptions *)
}.
(** :657-664 what get_status returns, pickled. *)
Record mstatus : Type := mkMS {
  mst_sched : nat * list nat * list nat;
  mst_root : node;
  mst_desc : option bytes;
  mst_path0 : list V
}.

(** Dictionaries with integer keys. *)
Fixpoint iget {A} (k : nat) (d : list (nat * A)) : option A :=
  match d with [] => None | (k', v) :: rest => if Nat.eqb k k' then Some v else iget k rest end.
Definition idel {A} (k : nat) (d : list (nat * A)) : list (nat * A) :=
  filter (fun kv => negb (Nat.eqb k (fst kv))) d.
Definition iset {A} (k : nat) (v : A) (d : list (nat * A)) : list (nat * A) := (k, v) :: idel k d.

(** :682-691 [scale_parameters]. *)
Fixpoint scale_with (scales : list (Q -> option V)) (l : list Q) : res (list V) :=
  match scales, l with
  | f :: scales', v :: l' =>
      match f v with
      | None => Err CompetitionError
      | Some x => do r <- scale_with scales' l'; Ok (x :: r)
      end
  | _, _ => Ok []
  end.
Definition scale_parameters (cf : mconfig) (l : list Q) : res (list V) := scale_with (mc_scales cf) l.

(** :649-652 [set_clean_status], with :522-525 [__init__]. *)
Definition set_clean_status (cf : mconfig) : tuner :=
  mkTuner cf new_sched (new_root (mc_tree cf)) (1 + branching (tp_splits (mc_tree cf))) [] true None 0.

(** :663 [path0]. *)
Definition path0 (cf : mconfig) : res (list V) :=
  do l <- parameters_for_path (mc_tree cf) [O]; scale_parameters cf l.

(** :657-664 [get_status]. *)
Definition get_status (t : tuner) : res mstatus :=
  do p <- path0 (mt_conf t);
  Ok (mkMS (sched_getstate (mt_sched t)) (mt_root t) (mt_desc t) p).

Fixpoint list_eqb (a b : list V) : bool :=
  match a, b with
  | [], [] => true
  | x :: a', y :: b' => veqb x y && list_eqb a' b'
  | _, _ => false
  end.

(** :666-680 [set_status], with :522-525 [__init__]. *)
Definition set_status (cf : mconfig) (st : mstatus) : res tuner :=
  match set_root (mc_tree cf) (mst_root st) with
  | Err _ => Err CompetitionError
  | Ok root =>
      do p <- path0 cf;
      if list_eqb (mst_path0 st) p then
        Ok (mkTuner cf (rollback (sched_setstate (mst_sched st))) root (count_tree_size root) [] true (mst_desc st) 0)
      else Err CompetitionError
  end.

Definition set_tree (sched : ssched) (root : node) (count used : nat) (t : tuner) : tuner :=
  mkTuner (mt_conf t) sched root count (mt_sims t) (mt_halt t) (mt_desc t) used.
Definition set_sims (sims : list (nat * list nat)) (t : tuner) : tuner :=
  mkTuner (mt_conf t) (mt_sched t) (mt_root t) (mt_count t) sims (mt_halt t) (mt_desc t) (mt_used t).

(** :746-750 [choose_candidate_colour]. *)
Definition choose_candidate_colour (cf : mconfig) (k : nat) : colour * nat :=
  match mc_colour cf with
  | Some c => (c, k)
  | None => (if Nat.even (mc_random cf k) then Black else White, S k)
  end.

Definition choose_uct (cf : mconfig) (k : nat) (x : node) : option (nat * node) := choose_action less (mc_random cf k) x.

(** :752-785 [get_game]. *)
Definition get_game (t : tuner) : tuner * res (option mjob) :=
  let cf := mt_conf t in
  if match mc_number_of_games cf with Some n => issued (mt_sched t) >=? n | None => false end then (t, Ok None)
  else
    let (sched, number) := issue (mt_sched t) in
    let '(root, grown, used, r) := sim_run (choose_uct cf) (mc_tree cf) (mt_used t) (mt_root t) in
    let t1 := set_tree sched root (mt_count t + grown)%nat used t in
    match r with
    | Err e => (t1, Err e)
    | Ok path =>
        match (do l <- parameters_for_path (mc_tree cf) path; scale_parameters cf l) with
        | Err e => (t1, Err e)
        | Ok engine_parameters =>
            match mc_maker cf engine_parameters with
            | None => (t1, Err CompetitionError)
            | Some p =>
                let candidate := (str "#" ++ str_int (Z.of_nat number), p) in
                let opponent := (mc_opponent cf, mc_opponent_player cf) in
                let (c, used') := choose_candidate_colour cf used in
                let t2 := set_tree (mt_sched t1) (mt_root t1) (mt_count t1) used' t1 in
                (set_sims (iset number path (mt_sims t2)) t2,
                 Ok (Some (mkMJ (str_int (Z.of_nat number)) number
                       (match c with Black => candidate | White => opponent end)
                       (match c with Black => opponent | White => candidate end))))
            end
        end
    end.

Definition set_flags (sched : ssched) (halt : bool) (desc : option bytes) (t : tuner) : tuner :=
  mkTuner (mt_conf t) sched (mt_root t) (mt_count t) (mt_sims t) halt desc (mt_used t).

(** :787-803 [process_game_result]; the history and the string returned are in MctsReportModel.v. *)
Definition process_game_result (r : mresponse) (t : tuner) : tuner * res unit :=
  let cf := mt_conf t in
  let t0 := set_flags (mt_sched t) false (mt_desc t) t in
  match dget (mc_opponent cf) (mr_descriptions r) with
  | None => (t0, Err KeyError)
  | Some desc =>
      let '(sched, x) := fix_token (mt_sched t) (mr_data r) in
      let t1 := set_flags sched false (Some desc) t in
      match x with
      | Err e => (t1, Err e)
      | Ok _ =>
          let won := match mr_loser r with Some c => bytes_eqb c (mc_opponent cf) | None => false end in
          match iget (mr_data r) (mt_sims t1) with
          | None => (t1, Err KeyError)
          | Some path =>
              let t2 := set_sims (idel (mr_data r) (mt_sims t1)) t1 in
              let t3 := set_tree (mt_sched t2) (update_stats won path (mt_root t2)) (mt_count t2) (mt_used t2) t2 in
              match (do l <- parameters_for_path (mc_tree cf) path; scale_parameters cf l) with
              | Err e => (t3, Err e)
              | Ok _ => (t3, Ok tt)
              end
          end
      end
  end.

(** :805-818 [process_game_error]: (stop_competition, retry_game). *)
Definition process_game_error (number : nat) (t : tuner) : tuner * res (bool * bool) :=
  match iget number (mt_sims t) with
  | None => (t, Err KeyError)
  | Some _ =>
      let t1 := set_sims (idel number (mt_sims t)) t in
      let '(sched, x) := fix_token (mt_sched t1) number in
      match x with
      | Err e => (t1, Err e)
      | Ok _ => (set_flags sched true (mt_desc t1) t1, Ok (mt_halt t1, false))
      end
  end.
End Tuner.
Arguments mconfig : clear implicits.
Arguments tuner : clear implicits.
Arguments mjob : clear implicits.
Arguments mstatus : clear implicits.
