(** The MCTS tuner: C40 - C42, C49. *)
From Coq Require Import QArith Lqa Permutation.
From Verif Require Import Base Bytes PyStr Dict JobModel JobSpec RingModel RingSpec SchedModel
  MctsModel MctsSpec MctsCellProofs MctsTreeProofs MctsProofs MctsRing MctsLedgerProofs.
Open Scope Z_scope.

(** ** C40: the parameter tree tiles the parameter space *)

(** The children of a node are the cells of the grid, each once. *)
Theorem C40_children : forall splits, Forall (fun s => (1 <= s)%nat) splits ->
  List.length (cube_coordinates splits) = product splits /\
  (forall i coords, nth_error (cube_coordinates splits) i = Some coords <-> is_child splits i coords) /\
  (forall coords, Forall2 lt coords splits -> exists! i, nth_error (cube_coordinates splits) i = Some coords).
Proof.
  intros splits PO. split; [|split].
  - unfold cube_coordinates. rewrite map_length, seq_length. apply branching_product.
  - intros i c. apply nth_cube. exact PO.
  - intros c F. exists (rank splits c). split; [apply nth_cube; [exact PO|split; [exact F|reflexivity]]|].
    intros i E. apply nth_cube in E; [|exact PO]. apply E.
Qed.
Print Assumptions C40_children.

(** The parameters of a path are the centre of its cell, strictly inside it and inside the cells
    around it. *)
Theorem C40_centre : forall tp path r, Forall (fun s => (1 <= s)%nat) (tp_splits tp) -> cell_of (tp_splits tp) path r ->
  exists params, parameters_for_path tp path = Ok params /\ Forall2 middle params r /\
    Forall2 (fun x i => fst i < x < snd i)%Q params r /\ Forall (fun x => 0 < x < 1)%Q params.
Proof.
  intros tp path r PO C. destruct (parameters_middle tp path r PO C) as (l & E & M).
  destruct (cell_inside _ _ _ _ C (unit_proper _)) as [IN PR]. exists l. split; [exact E|]. split; [exact M|].
  split; [exact (middle_inside _ _ _ M (Forall2_inside_refl _ PR))|].
  pose proof (middle_inside _ _ _ M IN) as F. unfold unit_cube in F. clear -F. revert l F. induction (tp_splits tp) as [|s l IH]; intros x F; inversion F; subst; constructor; auto.
Qed.
Print Assumptions C40_centre.

(** At each depth, every point of the space is in exactly one cell. *)
Theorem C40_cells_partition_the_space : forall splits depth point,
  Forall (fun s => (1 <= s)%nat) splits -> List.length point = List.length splits -> Forall (fun x => 0 <= x < 1)%Q point ->
  exists! path, List.length path = depth /\ exists r, cell_of splits path r /\ Forall2 within point r.
Proof.
  intros splits d x PO LX FX.
  assert (Forall2 within x (unit_cube splits)) as W.
  { clear -LX FX. revert x LX FX. induction splits as [|s l IH]; intros [|q x] LX FX; try discriminate; cbn; constructor; [|apply IH; [cbn in LX; lia|]]; inversion FX; auto. }
  destruct (tiles splits d PO (unit_cube splits) x (map_length _ _) (unit_proper _) W) as (path & r & L & C & WR).
  exists path. split; [split; [exact L|exists r; auto]|]. intros path2 (L2 & r2 & C2 & W2).
  eapply tiles_unique; [exact C|rewrite L2; congruence|apply unit_proper|exact C2|exact WR|exact W2].
Qed.
Print Assumptions C40_cells_partition_the_space.

(** The paths that have cells, and the others. *)
Theorem C40_paths : forall tp path, Forall (fun s => (1 <= s)%nat) (tp_splits tp) ->
  (Forall (fun i => (i < product (tp_splits tp))%nat) path -> exists r, cell_of (tp_splits tp) path r) /\
  (~ Forall (fun i => (i < product (tp_splits tp))%nat) path -> parameters_for_path tp path = Err IndexError).
Proof.
  intros tp path PO. split.
  - intros F. unfold cell_of. assert (List.length (unit_cube (tp_splits tp)) = List.length (tp_splits tp)) as LR by apply map_length.
    revert LR. generalize (unit_cube (tp_splits tp)). induction F as [|i path L F IH]; intros r LR; [exists r; constructor|].
    pose proof (coordinates_child _ PO i L) as CH. destruct (parts_exist _ _ (proj1 CH) r LR) as (r1 & P1).
    destruct (IH r1 (parts_length _ _ _ _ P1)) as (r2 & C). exists r2. econstructor; eauto.
  - intros N. unfold parameters_for_path. generalize (repeat 0%Q (List.length (tp_splits tp))), (repeat 1%Q (List.length (tp_splits tp))).
    induction path as [|i path IH]; intros lo br; [exfalso; apply N; constructor|]. cbn [path_loop].
    destruct (nth_error (cube_coordinates (tp_splits tp)) i) as [c|] eqn:E; [|reflexivity]. apply IH. intros F. apply N. constructor; [|exact F].
    apply nth_cube in E; [|exact PO]. destruct E as [F2 <-]. apply rank_lt. exact F2.
Qed.
Print Assumptions C40_paths.

Example C40_demo : map (coordinates [2; 3]%nat) [0; 1; 2; 3; 4; 5]%nat = [[0; 0]; [0; 1]; [0; 2]; [1; 0]; [1; 1]; [1; 2]]%nat /\
  exists a b, parameters_for_path (mkTP [2; 3]%nat 2 10 5) [4; 0]%nat = Ok [a; b] /\ (a == 5 # 8)%Q /\ (b == 7 # 18)%Q.
Proof. split; [reflexivity|]. eexists. eexists. split; [reflexivity|]. split; reflexivity. Qed.

(** ** C41: statistics *)

(** The statistics of the tree are always those of the games which have finished, whatever the
    order in which games finish or fail, and whenever the process is restarted; nothing fails
    except responses for games that aren't in progress. *)
Theorem C41_statistics : forall (V P : Type) (veqb : V -> V -> bool) less (cf : mconfig V P),
  (forall x, veqb x x = true) -> usable cf ->
  forall random calls, exists t st events now saved,
    mrun veqb less cf (set_clean_status (with_random random cf), None) calls = Some (t, st, events) /\
    msteps cf (empty_ledger, empty_ledger) events (now, saved) /\
    shows (mc_tree cf) (mt_root t) now /\ mt_sims t = l_out now /\ mt_count t = count_tree_size (mt_root t).
Proof.
  intros V P veqb less cf VR OK random cs. destruct (history veqb VR less cf OK random cs) as (t & st & es & now & saved & E & M & I).
  exists t, st, es, now, saved. split; [exact E|]. split; [exact M|]. split; [exact (mi_shows _ _ _ I)|]. split; [exact (mi_sims _ _ _ I)|exact (mi_count _ _ _ I)].
Qed.
Print Assumptions C41_statistics.

(** The visits (and wins) of an expanded node are those of its children, and of the games which
    were played with its own parameters. *)
Theorem C41_interior_nodes : forall (V P : Type) (veqb : V -> V -> bool) less (cf : mconfig V P),
  (forall x, veqb x x = true) -> usable cf ->
  forall random calls, exists t st events now saved,
    mrun veqb less cf (set_clean_status (with_random random cf), None) calls = Some (t, st, events) /\
    msteps cf (empty_ledger, empty_ledger) events (now, saved) /\
    let iv := tp_initial_visits (mc_tree cf) in let iw := tp_initial_wins (mc_tree cf) in
    forall p x cs, node_at p (mt_root t) = Some x -> n_children x = Some cs ->
      List.length cs = product (tp_splits (mc_tree cf)) /\ (List.length p < tp_max_depth (mc_tree cf))%nat /\
      n_visits x - iv = zsum (map (fun c => n_visits c - iv) cs) + count (ended_at p) (l_done now) /\
      n_wins x - iw = zsum (map (fun c => n_wins c - iw) cs) + count (wins_at p) (l_done now).
Proof.
  intros V P veqb less cf VR OK random cs. destruct (history veqb VR less cf OK random cs) as (t & st & es & now & saved & E & M & I).
  exists t, st, es, now, saved. split; [exact E|]. split; [exact M|]. cbv zeta. intros p x l EP EC.
  assert (List.length l = branching (tp_splits (mc_tree cf))) as LB.
  { destruct (wf_at _ _ _ _ (mi_wf _ _ _ I) EP) as [W _]. inversion W as [w v Ex|cs' w v L F Ex]; subst; cbn in EC; [discriminate|]. injection EC as ->. exact L. }
  split; [rewrite LB; apply branching_product|]. split.
  - destruct l as [|c l]; [pose proof (b_positive cf OK); cbn in LB; lia|].
    assert (node_at (p ++ [O]) (mt_root t) = Some c) as EA by (rewrite node_at_app, EP, node_at_one, EC; reflexivity).
    pose proof (mi_shallow _ _ _ I _ _ EA) as L. rewrite app_length in L. cbn [List.length] in L. lia.
  - exact (shows_sums _ _ _ (mi_shows _ _ _ I) (mi_wf _ _ _ I) p x l EP EC).
Qed.
Print Assumptions C41_interior_nodes.

(** A new game follows the most urgent children down to a leaf; if that has already been visited
    (and isn't at the maximum depth) it's expanded, and one more step is made. *)
Theorem C41_choice_of_games : forall (V P : Type) (veqb : V -> V -> bool) less (cf : mconfig V P),
  (forall x, veqb x x = true) -> usable cf -> (forall n, strict_order (less n)) ->
  forall random calls t st events t' j,
    mrun veqb less cf (set_clean_status (with_random random cf), None) calls = Some (t, st, events) ->
    get_game less t = (t', Ok (Some j)) ->
    exists path p0 leaf, iget (mj_data j) (mt_sims t') = Some path /\
      descends (most_urgent less) (mt_root t) p0 /\ node_at p0 (mt_root t) = Some leaf /\
      ((path = p0 /\ mt_root t' = mt_root t /\
        (List.length p0 = tp_max_depth (mc_tree cf) \/ n_visits leaf = tp_initial_visits (mc_tree cf))) \/
       (exists i, path = p0 ++ [i] /\ n_visits leaf <> tp_initial_visits (mc_tree cf) /\
          mt_root t' = update_at (expanded (mc_tree cf)) p0 (mt_root t) /\ most_urgent less (expanded (mc_tree cf) leaf) i)).
Proof.
  intros V P veqb less cf VR OK SO random cs t st es t' j E G. destruct (history veqb VR less cf OK random cs) as (t1 & st1 & es1 & now & saved & E1 & _ & I).
  rewrite E in E1. injection E1 as <- <- <-. eapply get_choice; eauto.
Qed.
Print Assumptions C41_choice_of_games.

(** The best parameters: those of the leaf reached by following the children with most wins. *)
Theorem C41_best_parameters : forall (V P : Type) (veqb : V -> V -> bool) less (cf : mconfig V P),
  (forall x, veqb x x = true) -> usable cf ->
  forall random calls t st events,
    mrun veqb less cf (set_clean_status (with_random random cf), None) calls = Some (t, st, events) ->
    exists path params, descends most_wins (mt_root t) path /\ parameters_for_path (mc_tree cf) path = Ok params /\
      retrieve_best_parameters (mc_tree cf) (mt_root t) = Ok params.
Proof.
  intros V P veqb less cf VR OK random cs t st es E. destruct (history veqb VR less cf OK random cs) as (t1 & st1 & es1 & now & saved & E1 & _ & I).
  rewrite E in E1. injection E1 as <- <- <-. eapply best_choice; eauto.
Qed.
Print Assumptions C41_best_parameters.

(** ** C42: scales *)

Theorem C42_explicit_scale : forall (A : Type) (values : list A), values <> [] ->
  (forall f, (0 <= f < 1)%Q -> exists k v, nth_error values k = Some v /\ explicit_scale values f = Ok v /\
     (qn k / qn (List.length values) <= f < qn (S k) / qn (List.length values))%Q) /\
  (forall k v, nth_error values k = Some v -> exists f, (0 <= f < 1)%Q /\ explicit_scale values f = Ok v) /\
  (forall f, (1 <= f)%Q -> explicit_scale values f = Err IndexError).
Proof.
  intros A values NE. split; [|split].
  - intros f F. exact (explicit_total values f NE F).
  - intros k v E. assert (k < List.length values)%nat as L by (apply nth_error_Some; congruence).
    destruct (frac_bounds _ _ L) as (F1 & F2 & F3). exists (qn k / qn (List.length values))%Q. split; [lra|].
    destruct (explicit_index values (qn k / qn (List.length values)) k L) as (v' & E1 & E2); [lra|]. congruence.
  - intros f. apply explicit_beyond.
Qed.
Print Assumptions C42_explicit_scale.

(** The recommended use: with split**depth values, the games at depth [depth] use value number
    [k] exactly if their cell is part number [k] of the parameter's range. *)
Theorem C42_explicit_scale_in_the_tree : forall (A : Type) tp path r,
  Forall (fun s => (1 <= s)%nat) (tp_splits tp) -> cell_of (tp_splits tp) path r ->
  exists params, parameters_for_path tp path = Ok params /\
    forall d s i x (values : list A), nth_error (tp_splits tp) d = Some s -> nth_error r d = Some i -> nth_error params d = Some x ->
      List.length values = (s ^ List.length path)%nat ->
      exists k v, nth_error values k = Some v /\ explicit_scale values x = Ok v /\ (fst i == qn k / qn (List.length values))%Q.
Proof.
  intros A tp path r PO C. destruct (parameters_middle tp path r PO C) as (l & E & M). exists l. split; [exact E|].
  intros d s i x values ES EI EX LV. pose proof (cell_grid _ _ _ C) as G.
  assert (grid (List.length path) s i) as GI.
  { clear -G ES EI. revert d ES EI. induction G as [|s0 i0 sp r0 H G IH]; intros [|d] ES EI; cbn in *; try discriminate; [congruence|eapply IH; eauto]. }
  assert (middle x i) as MI.
  { clear -M EX EI. revert d EX EI. induction M as [|x0 i0 xs r0 H G IH]; intros [|d] EX EI; cbn in *; try discriminate; [congruence|eapply IH; eauto]. }
  assert (1 <= s)%nat as S1. { apply nth_error_In in ES. rewrite Forall_forall in PO. exact (PO _ ES). }
  destruct (grid_explicit values s (List.length path) i x GI MI S1 LV) as (k & v & A1 & A2 & A3). exists k, v. rewrite LV. auto.
Qed.
Print Assumptions C42_explicit_scale_in_the_tree.

Theorem C42_linear_scale : forall lower upper, (lower < upper)%Q ->
  (linear_scale lower upper 0 == lower)%Q /\ (linear_scale lower upper 1 == upper)%Q /\
  (forall f, (0 <= f <= 1)%Q -> (lower <= linear_scale lower upper f <= upper)%Q) /\
  (forall f g, (f < g)%Q <-> (linear_scale lower upper f < linear_scale lower upper g)%Q) /\
  (forall y, (lower <= y <= upper)%Q -> exists f, (0 <= f <= 1)%Q /\ (linear_scale lower upper f == y)%Q).
Proof.
  intros a b L. split; [unfold linear_scale; ring|]. split; [unfold linear_scale; ring|]. split; [intros; apply linear_bounds; [lra|assumption]|].
  split; [intros; apply linear_mono; exact L|]. intros. apply linear_onto; assumption.
Qed.
Print Assumptions C42_linear_scale.

(** Rounding is to the nearest integer for values that aren't below -1/2; so with bounds that are
    natural numbers the result is between them. *)
Theorem C42_integer_scale : forall lower upper f,
  ((- (1 # 2) <= linear_scale lower upper f)%Q ->
     (inject_Z (linear_scale_integer lower upper f) - (1 # 2) <= linear_scale lower upper f < inject_Z (linear_scale_integer lower upper f) + (1 # 2))%Q) /\
  (forall a b, (lower = inject_Z a)%Q -> (upper = inject_Z b)%Q -> 0 <= a <= b -> (0 <= f <= 1)%Q -> a <= linear_scale_integer lower upper f <= b).
Proof.
  intros lower upper f. split; [exact (linear_integer lower upper f)|]. intros a b -> -> [A B] F. apply linear_integer_bounds; assumption.
Qed.
Print Assumptions C42_integer_scale.

Example C42_demo : explicit_scale [str "a"; str "b"; str "c"] (5 # 6) = Ok (str "c") /\ explicit_scale [str "a"; str "b"; str "c"] (1 # 3) = Ok (str "b") /\
  linear_scale_integer 0 10 (17 # 100) = 2 /\
  (* negative numbers aren't rounded to the nearest integer: -1.6 *)
  linear_scale_integer (-10) 0 (84 # 100) = -1.
Proof. repeat split. Qed.

(** ** C49: the tuner's games *)

(** In every history: game numbers are never in use twice, at most number_of_games games are
    begun, and games that were saved are never lost. *)
Theorem C49_games : forall (V P : Type) (cf : mconfig V P) events now saved,
  msteps cf (empty_ledger, empty_ledger) events (now, saved) ->
  NoDup (map fst (l_done now) ++ map fst (l_out now)) /\
  (forall n, mc_number_of_games cf = Some n -> games_begun now <= Z.max 0 n) /\
  (forall e1 e2, events = e1 ++ MSave :: e2 -> exists before v, msteps cf (empty_ledger, empty_ledger) e1 (before, v) /\ incl (l_done before) (l_done now)).
Proof.
  intros V P cf es now saved M. destruct (msteps_ok cf _ _ _ M (conj (empty_ok cf) (empty_ok cf))) as [[ND LM] _]. cbn [fst] in *. split; [exact ND|]. split.
  - intros n E. rewrite E in LM. exact LM.
  - intros e1 e2 ->. destruct (msteps_split cf _ _ _ _ M) as ([b v] & M1 & M2). exists b, v. split; [exact M1|].
    inversion M2 as [|? ? x1 ? ? S1 S2]; subst. inversion S1; subst. apply (msteps_kept cf (l_done b) _ _ _ S2). split; cbn; intros x I; exact I.
Qed.
Print Assumptions C49_games.

(** When there are no more games and none is in progress, the games numbered from 0 to
    number_of_games - 1 have been finished. *)
Theorem C49_complete : forall (V P : Type) (cf : mconfig V P) events now saved e,
  msteps cf (empty_ledger, empty_ledger) events (now, saved) -> mstep cf (now, saved) (MGet (Ok None) None) e -> l_out now = [] ->
  exists n, mc_number_of_games cf = Some n /\ (0 <= n -> Permutation (map fst (l_done now)) (seq 0 (Z.to_nat n))).
Proof.
  intros V P cf es now saved e M G EO. inversion G as [|l v LR| | | | | |]; subst. destruct (mc_number_of_games cf) as [n|] eqn:EN; [|contradiction].
  exists n. split; [reflexivity|]. intros N0. eapply complete; eauto.
Qed.
Print Assumptions C49_complete.

(** The tuner can be run by the ringmaster: everything in C29 holds for it. *)
Theorem C49_tuner_is_sound : forall (V P : Type) (veqb : V -> V -> bool) less (cf : mconfig V P),
  (forall x, veqb x x = true) -> usable cf ->
  exists inv saved, sound (mcts_comp veqb less) mj_id (fun c => exists random, c = with_random random cf)
    (mcts_answer (mc_opponent cf)) inv saved (mcts_records (mc_tree cf)).
Proof. intros V P veqb less cf VR OK. exists (minv cf), (msaved cf). exact (mcts_sound veqb VR less cf OK). Qed.
Print Assumptions C49_tuner_is_sound.

(** ** Examples: one parameter with two values; four games. *)
(** The order of the proportions of wins. *)
Definition demo_less (n : Z) (a b : Z * Z) : bool := negb (Qle_bool (fst b # Z.to_pos (snd b)) (fst a # Z.to_pos (snd a))).
Definition demo_cf2 : mconfig bytes bytes :=
  mkMC (mkTP [2]%nat 2 10 5) [fun f => match explicit_scale [str "p"; str "q"; str "r"; str "s"] f with Ok v => Some v | Err _ => Some [] end]
       (fun l => match l with [v] => Some v | _ => Some [] end) (str "opp") (str "engine") (Some 3) (Some Black) (fun _ => O).
Example C41_demo_usable : usable demo_cf2 /\ (forall n : Z, strict_order (demo_less n)) /\ (forall x, bytes_eqb x x = true).
Proof.
  split; [|split].
  - split; [repeat constructor|]. split; [cbn; lia|]. split.
    + intros f q [<-|[]]. cbn. destruct (explicit_scale _ q); discriminate.
    + intros l. cbn. destruct l as [|x [|y l]]; discriminate.
  - intros n. unfold demo_less. split; [|split]; [intros x|intros x y|intros x y z]; rewrite ?negb_true_iff, ?negb_false_iff.
    + apply Qle_bool_iff. apply Qle_refl.
    + intros N. apply Qle_bool_iff. destruct (Qlt_le_dec (fst x # Z.to_pos (snd x)) (fst y # Z.to_pos (snd y))) as [L|L].
      * apply Qlt_le_weak. exact L.
      * apply Qle_bool_iff in L. congruence.
    + rewrite !Qle_bool_iff. intros A B. eapply Qle_trans; eauto.
  - apply bytes_eqb_refl.
Qed.
Definition demo_lost (n : nat) : mresponse := mkMR (str_int (Z.of_nat n)) n (Some (str "opp")) [(str "opp", str "Opponent 1.0")].
Definition demo_events := mrun bytes_eqb demo_less demo_cf2 (set_clean_status (with_random (fun _ => O) demo_cf2), None)
  [CGet; CGet; CResult (demo_lost 0); CSave; CGet; CRestart (fun _ => O); CGet; CGet; CError 1; CGet].
Example C41_demo : match demo_events with
  | Some (t, _, es) =>
      (stats (mt_root t), option_map (fun l => map stats l) (n_children (mt_root t)), mt_count t,
       map (fun e => match e with MGet (Ok (Some j)) p => Some (mj_id j, mj_black j, p) | _ => None end) es)
      = ((6, 11), Some [(6, 11); (5, 10)], 5%nat,
         [Some (str "0", (str "#0", str "q"), Some [0%nat]); Some (str "1", (str "#1", str "q"), Some [0%nat]); None; None;
          Some (str "2", (str "#2", str "p"), Some [0; 0]%nat); None;
          Some (str "1", (str "#1", str "p"), Some [0; 0]%nat); Some (str "2", (str "#2", str "p"), Some [0; 0]%nat); None; None])
  | None => False
  end.
Proof. vm_compute. reflexivity. Qed.
