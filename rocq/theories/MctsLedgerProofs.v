(** More proofs about the MCTS tuner: sums, choices, whole histories, the ringmaster (C41, C49). *)
From Coq Require Import QArith Permutation.
From Verif Require Import Base Bytes PyStr Dict JobModel JobSpec RingModel RingSpec SchedModel SchedSpec SchedProofs
  MctsModel MctsSpec MctsCellProofs MctsTreeProofs MctsProofs MctsRing.
Open Scope Z_scope.

(** ** A node's visits are its children's, and the games which ended there *)
Lemma zsum_map_add {A} (f g : A -> Z) l : zsum (map (fun x => f x + g x) l) = zsum (map f l) + zsum (map g l).
Proof. induction l as [|x l IH]; cbn; [lia|]. unfold zsum in IH. rewrite IH. lia. Qed.

Lemma prefixb_next p q b : Forall (fun i => (i < b)%nat) q ->
  (if prefixb p q then 1 else 0) =
  zsum (map (fun i => if prefixb (p ++ [i]) q then 1 else 0) (seq 0 b)) + (if list_eq_dec Nat.eq_dec p q then 1 else 0).
Proof.
  intros F. revert p. induction F as [|j q J F IH]; intros p.
  - destruct p as [|i p].
    + rewrite prefixb_nil. destruct (list_eq_dec Nat.eq_dec [] []) as [_|N]; [|congruence].
      replace (zsum _) with 0; [lia|]. induction (seq 0 b) as [|x l IHl]; [reflexivity|]. cbn. exact IHl.
    + rewrite prefixb_long. destruct (list_eq_dec Nat.eq_dec (i :: p) []) as [Z|_]; [discriminate|].
      replace (zsum _) with 0; [lia|]. induction (seq 0 b) as [|x l IHl]; [reflexivity|]. cbn. exact IHl.
  - destruct p as [|i p].
    + rewrite prefixb_nil. destruct (list_eq_dec Nat.eq_dec [] (j :: q)) as [Z|_]; [discriminate|]. cbn [app].
      assert (forall k n, (k <= j < k + n)%nat -> zsum (map (fun i => if prefixb [i] (j :: q) then 1 else 0) (seq k n)) = 1) as H.
      { assert (forall k n, (j < k)%nat -> zsum (map (fun i => if prefixb [i] (j :: q) then 1 else 0) (seq k n)) = 0) as H0.
        { intros k n. revert k. induction n as [|n IHn]; intros k L; [reflexivity|]. cbn [seq map]. rewrite prefixb_cons. destruct (Nat.eqb_spec k j); [lia|].
          cbn [andb]. specialize (IHn (S k) ltac:(lia)). cbn [zsum fold_right]. unfold zsum in IHn. lia. }
        intros k n. revert k. induction n as [|n IHn]; intros k L; [lia|]. cbn [seq map]. rewrite prefixb_cons. destruct (Nat.eqb_spec k j) as [E|E]; cbn [andb].
        - rewrite prefixb_nil. specialize (H0 (S k) n ltac:(lia)). cbn [zsum fold_right]. unfold zsum in H0. lia.
        - specialize (IHn (S k) ltac:(lia)). cbn [zsum fold_right]. unfold zsum in IHn. lia. }
      rewrite H by lia. reflexivity.
    + rewrite prefixb_cons. cbn [app].
      replace (map (fun i0 => if prefixb (i :: p ++ [i0]) (j :: q) then 1 else 0) (seq 0 b))
        with (map (fun i0 => if Nat.eqb i j && prefixb (p ++ [i0]) q then 1 else 0) (seq 0 b)) by (apply map_ext; intros k; rewrite prefixb_cons; reflexivity).
      destruct (Nat.eqb_spec i j) as [E|E]; cbn [andb].
      * rewrite IH. subst j. destruct (list_eq_dec Nat.eq_dec p q) as [Z|Z], (list_eq_dec Nat.eq_dec (i :: p) (i :: q)) as [Z'|Z']; try reflexivity; congruence.
      * destruct (list_eq_dec Nat.eq_dec (i :: p) (j :: q)) as [Z|Z]; [congruence|].
        replace (zsum _) with 0; [lia|]. clear. induction (seq 0 b) as [|x l IHl]; [reflexivity|]. cbn. exact IHl.
Qed.

Lemma count_next p b (done : list (nat * option (list nat * bool))) :
  (forall n q w, In (n, Some (q, w)) done -> Forall (fun i => (i < b)%nat) q) ->
  count (passes_through p) done = zsum (map (fun i => count (passes_through (p ++ [i])) done) (seq 0 b)) + count (ended_at p) done /\
  count (won_through p) done = zsum (map (fun i => count (won_through (p ++ [i])) done) (seq 0 b)) + count (wins_at p) done.
Proof.
  induction done as [|[n [[q w]|]] done IH]; intros H.
  - split; (replace (zsum _) with 0; [reflexivity|]; induction (seq 0 b) as [|x l IHl]; [reflexivity|]; cbn; exact IHl).
  - destruct IH as [I1 I2]; [intros; eapply H; right; eauto|]. pose proof (prefixb_next p q b (H n q w (or_introl eq_refl))) as E.
    rewrite !count_cons, I1, I2.
    replace (map (fun i => count (passes_through (p ++ [i])) ((n, Some (q, w)) :: done)) (seq 0 b))
      with (map (fun i => (if prefixb (p ++ [i]) q then 1 else 0) + count (passes_through (p ++ [i])) done) (seq 0 b)) by (apply map_ext; intros; rewrite count_cons; reflexivity).
    replace (map (fun i => count (won_through (p ++ [i])) ((n, Some (q, w)) :: done)) (seq 0 b))
      with (map (fun i => (if prefixb (p ++ [i]) q && w then 1 else 0) + count (won_through (p ++ [i])) done) (seq 0 b)) by (apply map_ext; intros; rewrite count_cons; reflexivity).
    rewrite !zsum_map_add. change (passes_through p (n, Some (q, w))) with (prefixb p q). change (won_through p (n, Some (q, w))) with (prefixb p q && w).
    change (ended_at p (n, Some (q, w))) with (if list_eq_dec Nat.eq_dec p q then true else false).
    change (wins_at p (n, Some (q, w))) with ((if list_eq_dec Nat.eq_dec p q then true else false) && w). split; [destruct (list_eq_dec Nat.eq_dec p q); lia|].
    destruct w.
    + rewrite andb_true_r. replace (map (fun i => if prefixb (p ++ [i]) q && true then 1 else 0) (seq 0 b)) with (map (fun i => if prefixb (p ++ [i]) q then 1 else 0) (seq 0 b)) by (apply map_ext; intros; rewrite andb_true_r; reflexivity).
      destruct (list_eq_dec Nat.eq_dec p q); cbn [andb]; lia.
    + rewrite andb_false_r. replace (zsum (map (fun i => if prefixb (p ++ [i]) q && false then 1 else 0) (seq 0 b))) with 0.
      2:{ clear. induction (seq 0 b) as [|x l IHl]; [reflexivity|]. cbn. rewrite andb_false_r. exact IHl. }
      rewrite andb_false_r. lia.
  - destruct IH as [I1 I2]; [intros; eapply H; right; eauto|]. rewrite !count_cons. cbn [passes_through won_through ended_at wins_at snd].
    replace (map (fun i => count (passes_through (p ++ [i])) ((n, None) :: done)) (seq 0 b)) with (map (fun i => count (passes_through (p ++ [i])) done) (seq 0 b)) by (apply map_ext; intros; rewrite count_cons; reflexivity).
    replace (map (fun i => count (won_through (p ++ [i])) ((n, None) :: done)) (seq 0 b)) with (map (fun i => count (won_through (p ++ [i])) done) (seq 0 b)) by (apply map_ext; intros; rewrite count_cons; reflexivity).
    split; lia.
Qed.

Lemma map_nth_seq {A} (f : A -> Z) (g : nat -> Z) l : (forall i x, nth_error l i = Some x -> f x = g i) ->
  zsum (map f l) = zsum (map g (seq 0 (List.length l))).
Proof.
  intros H. f_equal. assert (forall k, (forall i x, nth_error l i = Some x -> f x = g (k + i)%nat) -> map f l = map g (seq k (List.length l))) as X.
  { clear H. induction l as [|y l IH]; intros k H; [reflexivity|]. cbn [map List.length seq]. f_equal.
    - rewrite (H 0%nat y eq_refl), Nat.add_0_r. reflexivity.
    - apply IH. intros i x E. rewrite (H (S i) x E). f_equal. lia. }
  apply X. exact H.
Qed.

Lemma shows_sums tp root l : shows tp root l -> wf (branching (tp_splits tp)) root -> forall p x cs, node_at p root = Some x -> n_children x = Some cs ->
  n_visits x - tp_initial_visits tp = zsum (map (fun c => n_visits c - tp_initial_visits tp) cs) + count (ended_at p) (l_done l) /\
  n_wins x - tp_initial_wins tp = zsum (map (fun c => n_wins c - tp_initial_wins tp) cs) + count (wins_at p) (l_done l).
Proof.
  intros SH W p x cs E EC. set (b := branching (tp_splits tp)) in *. pose proof SH as (H1 & H2 & _).
  assert (List.length cs = b) as LB. { destruct (wf_at b p root x W E) as [Wx _]. inversion Wx as [w v Ex|cs' w v L F Ex]; subst; cbn in EC; [discriminate|]. injection EC as ->. exact L. }
  assert (forall n q w, In (n, Some (q, w)) (l_done l) -> Forall (fun i => (i < b)%nat) q) as FI.
  { intros n q w I. specialize (H2 _ _ _ I). destruct (node_at q root) as [y|] eqn:EQ; [|congruence]. exact (proj2 (wf_at b q root y W EQ)). }
  destruct (count_next p b (l_done l) FI) as [C1 C2]. destruct (H1 p x E) as [V1 V2].
  assert (forall i c, nth_error cs i = Some c -> node_at (p ++ [i]) root = Some c) as CH.
  { intros i c Ei. rewrite node_at_app, E, node_at_one, EC. exact Ei. }
  rewrite (map_nth_seq (fun c => n_visits c - tp_initial_visits tp) (fun i => count (passes_through (p ++ [i])) (l_done l)) cs).
  2:{ intros i c Ei. destruct (H1 _ _ (CH i c Ei)). lia. }
  rewrite (map_nth_seq (fun c => n_wins c - tp_initial_wins tp) (fun i => count (won_through (p ++ [i])) (l_done l)) cs).
  2:{ intros i c Ei. destruct (H1 _ _ (CH i c Ei)). lia. }
  rewrite LB. lia.
Qed.

(** ** Whole histories *)
Section History.
Context {V P : Type}.
Variable veqb : V -> V -> bool.
Hypothesis veqb_refl : forall x, veqb x x = true.
Variable less : Z -> Z * Z -> Z * Z -> bool.
Variable cf : mconfig V P.
Hypothesis cf_ok : usable cf.

Lemma history random cs : exists t st es now saved,
  mrun veqb less cf (set_clean_status (with_random random cf), None) cs = Some (t, st, es) /\
  msteps cf (empty_ledger, empty_ledger) es (now, saved) /\ MInv cf t now.
Proof.
  destruct (mrun_steps veqb veqb_refl less cf cf_ok cs _ _ (init_sys cf cf_ok random)) as ([t st] & es & [now saved] & E & M & [I _]).
  exists t, st, es, now, saved. auto.
Qed.

(** The game chosen. *)
Lemma get_choice t l t' j : MInv cf t l -> (forall n, strict_order (less n)) -> get_game less t = (t', Ok (Some j)) ->
  exists path p0 leaf, iget (mj_data j) (mt_sims t') = Some path /\
    descends (most_urgent less) (mt_root t) p0 /\ node_at p0 (mt_root t) = Some leaf /\
    ((path = p0 /\ mt_root t' = mt_root t /\ (List.length p0 = tp_max_depth (mc_tree cf) \/ n_visits leaf = tp_initial_visits (mc_tree cf))) \/
     (exists i, path = p0 ++ [i] /\ n_visits leaf <> tp_initial_visits (mc_tree cf) /\
        mt_root t' = update_at (expanded (mc_tree cf)) p0 (mt_root t) /\ most_urgent less (expanded (mc_tree cf) leaf) i)).
Proof.
  intros I SO E. destruct (mi_conf _ _ _ I) as (r & EC). unfold get_game in E. cbv zeta in E. rewrite EC in E. cbn [with_random mc_number_of_games mc_tree mc_maker mc_opponent mc_opponent_player] in E.
  destruct (match mc_number_of_games cf with Some n => issued (mt_sched t) >=? n | None => false end); [discriminate|].
  destruct (issue (mt_sched t)) as [s' n] eqn:ES.
  destruct (sim_run_ok (mc_tree cf) (b_positive cf cf_ok) (choose_uct less (with_random r cf)) (most_urgent less)) with (root := mt_root t) (k := mt_used t)
    as (root' & grown & k' & path & ER & SI).
  - intros k x i c H. split; [eapply choose_action_best; [apply SO|exact H]|eapply choose_action_child; exact H].
  - intros k x cs. apply choose_action_some.
  - exact (mi_wf _ _ _ I).
  - exact (mi_root _ _ _ I).
  - exact (mi_shallow _ _ _ I).
  - rewrite ER in E. destruct (do l0 <- parameters_for_path (mc_tree cf) path; scale_parameters (with_random r cf) l0) as [vs|e]; [|discriminate].
    destruct (mc_maker cf vs) as [p|]; [|discriminate]. destruct (choose_candidate_colour (with_random r cf) k') as [c used'].
    injection E as <- <-. cbn [set_sims set_tree mt_sims mj_data iset iget mt_root]. rewrite Nat.eqb_refl.
    destruct (si_choice _ _ _ _ _ _ SI) as (p0 & leaf & D & A & X). exists path, p0, leaf. auto.
Qed.

(** The best parameters. *)
Lemma best_choice t l : MInv cf t l ->
  exists path params, descends most_wins (mt_root t) path /\ parameters_for_path (mc_tree cf) path = Ok params /\
    retrieve_best_parameters (mc_tree cf) (mt_root t) = Ok params.
Proof.
  intros I. destruct (walk_ok _ (b_positive cf cf_ok) (fun _ => choose_greedy) most_wins) with (x := mt_root t) (k := 0%nat) as (path & leaf & E & D & A & N).
  - intros k x i c. apply choose_greedy_best.
  - intros k x cs. apply choose_greedy_some.
  - exact (mi_wf _ _ _ I).
  - destruct (params_total cf cf_ok path (proj2 (wf_at _ _ _ _ (mi_wf _ _ _ I) A))) as (pl & EP). exists path, pl. split; [exact D|]. split; [exact EP|].
    unfold retrieve_best_parameters, retrieve_best_path. rewrite E. exact EP.
Qed.
End History.

(** ** What the abstract machine guarantees *)
Section Machine.
Context {V P : Type}.
Variable cf : mconfig V P.

Definition numbers (l : ledger) : list nat := map fst (l_done l) ++ map fst (l_out l).

Definition lok (l : ledger) : Prop :=
  NoDup (numbers l) /\ match mc_number_of_games cf with Some n => games_begun l <= Z.max 0 n | None => True end.

Lemma numbers_length l : Z.of_nat (List.length (numbers l)) = games_begun l.
Proof. unfold numbers, games_begun. rewrite app_length, !map_length. lia. Qed.

Lemma mid_perm {A B C} (a : list (A * B)) x b (d : list (A * C)) : Permutation (map fst d ++ map fst (a ++ x :: b)) (fst x :: map fst d ++ map fst (a ++ b)).
Proof. rewrite !map_app. cbn [map]. rewrite !app_assoc. symmetry. apply Permutation_middle. Qed.

Lemma restart_ok l v : lok v -> lok (mkL (l_done v) [] l).
Proof.
  intros [ND LM]. split.
  - unfold numbers in *. cbn [l_done l_out map]. rewrite app_nil_r. apply NoDup_app_inv in ND. apply ND.
  - destruct (mc_number_of_games cf); [|exact I]. unfold games_begun in *. cbn [l_done l_out List.length]. lia.
Qed.

Lemma mstep_ok x (e : mevent P) x' : mstep cf x e x' -> lok (fst x) /\ lok (snd x) -> lok (fst x') /\ lok (snd x').
Proof.
  intros M. destruct M; cbn [fst snd]; intros [[ND LM] OV]; (split; [|first [exact OV|split; assumption]]); try (split; assumption).
  - match goal with H : next_number l n |- _ => destruct H as [NT _] end. split.
    + unfold numbers. cbn [l_done l_out map fst]. rewrite <- Permutation_middle. constructor; [|exact ND]. intros X. apply NT. unfold numbers in X. apply in_app_or in X. exact X.
    + unfold limit_reached in *. destruct (mc_number_of_games cf) as [m|]; [|exact I]. unfold games_begun in *. cbn [l_done l_out List.length]. lia.
  - split.
    + unfold numbers in *. match goal with H : l_out l = _ |- _ => rewrite H in ND end. cbn [l_done l_out map fst].
      rewrite mid_perm in ND. exact ND.
    + destruct (mc_number_of_games cf); [|exact I]. unfold games_begun in *. match goal with H : l_out l = _ |- _ => rewrite H in LM end.
      cbn [l_done l_out List.length]. rewrite app_length in *. cbn [List.length] in LM. lia.
  - split.
    + unfold numbers in *. match goal with H : l_out l = _ |- _ => rewrite H in ND end. cbn [l_done l_out map fst].
      rewrite mid_perm in ND. exact ND.
    + destruct (mc_number_of_games cf); [|exact I]. unfold games_begun in *. match goal with H : l_out l = _ |- _ => rewrite H in LM end.
      cbn [l_done l_out List.length]. rewrite app_length in *. cbn [List.length] in LM. lia.
  - apply restart_ok. exact OV.
Qed.

Lemma msteps_ok x (es : list (mevent P)) x' : msteps cf x es x' -> lok (fst x) /\ lok (snd x) -> lok (fst x') /\ lok (snd x').
Proof. induction 1 as [|x e x1 es x2 M MS IH]; intros O; [exact O|]. apply IH. eapply mstep_ok; eauto. Qed.
Lemma empty_ok : lok empty_ledger.
Proof. split; [constructor|]. destruct (mc_number_of_games cf); [|exact I]. unfold games_begun. cbn. lia. Qed.

(** Saved games are never lost. *)
Definition kept (base : list (nat * option (list nat * bool))) (l : ledger) : Prop := incl base (l_done l).
Lemma mstep_kept base x (e : mevent P) x' : mstep cf x e x' -> kept base (fst x) /\ kept base (snd x) -> kept base (fst x') /\ kept base (snd x').
Proof.
  intros M. unfold kept. destruct M; cbn [fst snd l_done]; intros [K1 K2]; (split; [|assumption]); auto; try (intros z Z; right; auto).
Qed.
Lemma msteps_kept base x (es : list (mevent P)) x' : msteps cf x es x' -> kept base (fst x) /\ kept base (snd x) -> kept base (fst x') /\ kept base (snd x').
Proof. induction 1 as [|x e x1 es x2 M MS IH]; intros O; [exact O|]. apply IH. eapply mstep_kept; eauto. Qed.

Lemma next_bound l n : NoDup (numbers l) -> next_number l n -> Z.of_nat n <= games_begun l.
Proof.
  intros ND [_ H]. rewrite <- numbers_length. assert (List.length (seq 0 n) <= List.length (numbers l))%nat as L.
  { apply NoDup_incl_length; [apply seq_NoDup|]. intros m I. apply in_seq in I. specialize (H m ltac:(lia)). unfold number_taken in H. unfold numbers. apply in_or_app. exact H. }
  rewrite seq_length in L. lia.
Qed.
Definition below (l : ledger) : Prop := match mc_number_of_games cf with Some n => forall m, In m (numbers l) -> Z.of_nat m < n | None => True end.
Lemma mstep_below x (e : mevent P) x' : mstep cf x e x' -> lok (fst x) -> below (fst x) /\ below (snd x) -> below (fst x') /\ below (snd x').
Proof.
  intros M. unfold below. destruct (mc_number_of_games cf) as [N|] eqn:EN; [|intros; split; exact I].
  destruct M; cbn [fst snd]; intros [ND LM] [B1 B2]; (split; [|assumption]); auto; unfold numbers in *; cbn [l_done l_out map fst app].
  - intros m I. apply in_app_or in I. destruct I as [I|[I|I]]; [apply B1, in_or_app; auto| |apply B1, in_or_app; auto]. subst m.
    match goal with H : next_number l n, G : ~ limit_reached _ l |- _ => pose proof (next_bound l n ND H); unfold limit_reached in G; rewrite EN in G end. lia.
  - match goal with H : l_out l = _ |- _ => rewrite H in B1 end. intros m I. apply B1. eapply Permutation_in; [symmetry; apply mid_perm|]. exact I.
  - match goal with H : l_out l = _ |- _ => rewrite H in B1 end. intros m I. apply B1. eapply Permutation_in; [symmetry; apply mid_perm|]. exact I.
  - intros m I. rewrite app_nil_r in I. apply B2, in_or_app. left. exact I.
Qed.
Lemma msteps_below x (es : list (mevent P)) x' : msteps cf x es x' -> lok (fst x) /\ lok (snd x) -> below (fst x) /\ below (snd x) -> below (fst x') /\ below (snd x').
Proof. induction 1 as [|x e x1 es x2 M MS IH]; intros O B; [exact B|]. apply IH; [eapply mstep_ok; eauto|eapply mstep_below; eauto]. apply O. Qed.
Lemma empty_below : below empty_ledger.
Proof. unfold below. destruct (mc_number_of_games cf); [|exact I]. intros m []. Qed.

Lemma complete es now saved N : msteps (P := P) cf (empty_ledger, empty_ledger) es (now, saved) -> mc_number_of_games cf = Some N -> 0 <= N ->
  l_out now = [] -> limit_reached (Some N) now -> Permutation (map fst (l_done now)) (seq 0 (Z.to_nat N)).
Proof.
  intros M EN N0 EO LR. destruct (msteps_ok _ _ _ M (conj empty_ok empty_ok)) as [[ND LM] _].
  destruct (msteps_below _ _ _ M (conj empty_ok empty_ok) (conj empty_below empty_below)) as [B _]. cbn [fst] in *.
  unfold below in B. rewrite EN in B, LM. unfold numbers in *. rewrite EO in *. cbn [map] in *. rewrite app_nil_r in *.
  unfold limit_reached, games_begun in *. rewrite EO in *. cbn [List.length] in *. apply NoDup_below; [exact ND|rewrite map_length; lia|].
  intros m I. specialize (B m I). lia.
Qed.

Lemma number_taken_in l n : number_taken l n <-> In n (numbers l).
Proof. unfold number_taken, numbers. rewrite in_app_iff. reflexivity. Qed.

(** The numbers in use are below the number of games begun plus those that went back. *)
Lemma msteps_split x (es1 es2 : list (mevent P)) x' : msteps cf x (es1 ++ es2) x' -> exists x1, msteps cf x es1 x1 /\ msteps cf x1 es2 x'.
Proof.
  revert x. induction es1 as [|e es1 IH]; intros x M; [exists x; split; [constructor|exact M]|]. cbn in M.
  inversion M as [|? ? x1 ? ? M1 M2]; subst. destruct (IH _ M2) as (x2 & A & B). exists x2. split; [econstructor; eauto|exact B].
Qed.
End Machine.

(** ** The ringmaster *)
Section Ringmaster.
Context {V P : Type}.
Variable veqb : V -> V -> bool.
Hypothesis veqb_refl : forall x, veqb x x = true.
Variable less : Z -> Z * Z -> Z * Z -> bool.
Variable cf : mconfig V P.
Hypothesis cf_ok : usable cf.

Definition minv (t : tuner V P) (js : list (mjob P)) : Prop :=
  exists l, MInv cf t l /\ Permutation (map fst (l_out l)) (map mj_data js) /\
    forall j, In j js -> mj_id j = str_int (Z.of_nat (mj_data j)).
Definition msaved (st : mstatus V) : Prop := exists l, SInv cf st l.

Lemma shows_new_stats tp p z l : shows tp (new_root tp) l -> node_at p (new_root tp) = Some z -> stats z = (tp_initial_wins tp, tp_initial_visits tp).
Proof. intros _ E. apply new_root_at in E. apply E. Qed.

Lemma records_get t l t' j x : MInv cf t l -> get_game less t = (t', Ok (Some j)) -> mcts_records (mc_tree cf) x t -> mcts_records (mc_tree cf) x t'.
Proof.
  intros I E RX. destruct (mi_conf _ _ _ I) as (r & EC). unfold get_game in E. cbv zeta in E. rewrite EC in E. cbn [with_random mc_number_of_games mc_tree mc_maker mc_opponent mc_opponent_player] in E.
  destruct (match mc_number_of_games cf with Some n => issued (mt_sched t) >=? n | None => false end); [discriminate|].
  destruct (issue (mt_sched t)) as [s' n] eqn:ES.
  destruct (sim_run_ok (mc_tree cf) (b_positive cf cf_ok) (choose_uct less (with_random r cf)) (fun x i => exists c, child_of x i c)) with (root := mt_root t) (k := mt_used t)
    as (root' & grown & k' & path & ER & SI).
  - intros k y i c H. apply choose_action_child in H. split; [exists c|]; exact H.
  - intros k y cs. apply choose_action_some.
  - exact (mi_wf _ _ _ I).
  - exact (mi_root _ _ _ I).
  - exact (mi_shallow _ _ _ I).
  - rewrite ER in E. destruct (do l0 <- parameters_for_path (mc_tree cf) path; scale_parameters (with_random r cf) l0) as [vs|e]; [|discriminate].
    destruct (mc_maker cf vs) as [p|]; [|discriminate]. destruct (choose_candidate_colour (with_random r cf) k') as [c used'].
    injection E as <- <-. intros q. specialize (RX q). cbn [set_sims set_tree mt_root].
    destruct (node_at q root') as [z|] eqn:EZ.
    + destruct (si_new _ _ _ _ _ _ SI q z EZ) as [(z0 & E0 & S)|[N ->]].
      * rewrite E0 in RX. cbn [option_map] in *. rewrite S. destruct RX as [RX|(A & z1 & B & D)]; [left; exact RX|right].
        split; [exact A|]. exists z. split; [reflexivity|]. injection B as <-. congruence.
      * right. split; [|eexists; split; [reflexivity|reflexivity]]. rewrite N in RX. destruct x as [st|]; [|exact Logic.I].
        destruct RX as [RX|(A & z1 & B & _)]; [|discriminate]. cbn in RX. destruct (node_at q (mst_root st)); [discriminate|reflexivity].
    + destruct (node_at q (mt_root t)) as [z0|] eqn:E0; [|left; cbn; destruct RX as [RX|(_ & z1 & B & _)]; [exact RX|discriminate]].
      destruct (si_old _ _ _ _ _ _ SI q z0 E0) as (z & Ez & _). congruence.
Qed.

Lemma mcts_sound : sound (mcts_comp veqb less) mj_id (like_cf cf) (mcts_answer (mc_opponent cf)) minv msaved (mcts_records (mc_tree cf)).
Proof.
  constructor.
  - intros t l l' (lg & I & PE & ID) PL. exists lg. split; [exact I|]. split; [rewrite PE; apply Permutation_map; exact PL|].
    intros j IJ. apply ID. eapply Permutation_in; [symmetry; exact PL|exact IJ].
  - intros c t (r & ->) E. cbn in E. injection E as <-. split.
    + exists empty_ledger. split; [apply clean_inv; exact cf_ok|]. split; [constructor|intros ? []].
    + intros p. cbn [set_clean_status mt_root with_random mc_tree]. destruct (node_at p (new_root (mc_tree cf))) as [z|] eqn:EZ; [|left; reflexivity].
      right. split; [exact Logic.I|]. exists z. split; [reflexivity|]. apply new_root_at in EZ. apply EZ.
  - intros c st t (r & ->) (l & SI) E. cbn [mcts_comp c_load] in E. destruct (load_inv veqb veqb_refl cf cf_ok st l r SI) as (t' & E' & I).
    assert (t' = t) by congruence. subst t'. split.
    + eexists. split; [exact I|]. split; [constructor|intros ? []].
    + assert (mt_root t = mst_root st) as ER.
      { unfold set_status in E'. destruct (set_root (mc_tree (with_random r cf)) (mst_root st)) as [root|] eqn:ES; [|discriminate].
        unfold set_root in ES. destruct (path0 (with_random r cf)) as [p0|]; [|discriminate]. cbn [bind] in E'.
        destruct (list_eqb veqb (mst_path0 st) p0); [|discriminate]. injection E' as <-. cbn [mt_root].
        destruct (n_children (mst_root st)) as [[|c0 cs]|]; try discriminate. destruct (Nat.eqb _ _); [congruence|discriminate]. }
      intros p. left. rewrite ER. reflexivity.
  - intros t js (l & I & _). destruct (status_inv cf cf_ok t l I) as (st & E & SI). cbn [mcts_comp c_status]. rewrite E. split; [exists l; exact SI|].
    assert (mst_root st = mt_root t) as ER. { unfold get_status in E. destruct (path0 (mt_conf t)); [|discriminate]. cbn [bind] in E. injection E as <-. reflexivity. }
    intros p. left. rewrite ER. reflexivity.
  - intros t js x (l & I & PE & ID) RX. cbn [mcts_comp c_get]. pose proof (get_inv less cf cf_ok t l I) as G. pose proof (records_get t l) as RG.
    destruct (get_game less t) as [t' [[j|]|e]]; [| |contradiction].
    + destruct G as (n & path & A1 & A2 & A3 & A4 & A5 & A6). destruct A4 as (pl & vs & p & _ & _ & _ & JI & JD & _).
      split; [|split; [eapply RG; eauto|]].
      * eexists. split; [exact A6|]. cbn [l_out map fst]. split; [rewrite JD; constructor; exact PE|]. intros j1 [D|D]; [subst j1; congruence|exact (ID _ D)].
      * intros X. apply in_map_iff in X. destruct X as (j1 & E1 & I1). rewrite (ID _ I1), JI in E1. apply str_int_inj in E1. apply Nat2Z.inj in E1.
        destruct A2 as [NT _]. apply NT. right. eapply Permutation_in; [symmetry; exact PE|]. apply in_map_iff. exists j1. auto.
    + destruct G as [-> _]. split; [exists l; auto|exact RX].
  - intros t js x I RX. split; assumption.
  - intros t j js r (l & I & PE & ID) [RD DE]. cbn [mcts_comp c_result]. pose proof (result_inv cf cf_ok t l r I) as G.
    destruct (process_game_result r t) as [t' [[]|e]].
    + destruct G as (o1 & path & o2 & w & _ & EL & _ & I'). exists t'. split; [reflexivity|]. eexists. split; [exact I'|]. cbn [l_out]. split.
      * rewrite EL, map_app in PE. cbn [map fst] in PE. rewrite <- RD in PE. rewrite map_app. apply Permutation_cons_inv with (mr_data r). rewrite Permutation_middle. exact PE.
      * intros j1 I1. apply ID. right. exact I1.
    + exfalso. destruct G as (_ & [NI|ND] & _); [|exact (DE ND)]. apply NI. eapply Permutation_in; [symmetry; exact PE|]. left. symmetry. exact RD.
  - intros t j js n (l & I & PE & ID). cbn [mcts_comp c_error]. pose proof (error_inv cf t l (mj_data j) I) as G.
    destruct (process_game_error (mj_data j) t) as [t' [v|e]].
    + destruct G as (o1 & path & o2 & -> & EL & I'). exists t', (l_trouble l), false. split; [reflexivity|].
      assert (minv t' js) as MI.
      { eexists. split; [exact I'|]. cbn [l_out]. split.
        - rewrite EL, map_app in PE. cbn [map fst] in PE. rewrite map_app. apply Permutation_cons_inv with (mj_data j). rewrite Permutation_middle. exact PE.
        - intros j1 I1. apply ID. right. exact I1. }
      destruct (l_trouble l); [right|]; exact MI.
    + exfalso. destruct G as (_ & NI & _). apply NI. eapply Permutation_in; [symmetry; exact PE|]. left. reflexivity.
Qed.
End Ringmaster.
