(** Proofs about the MCTS tuner (C41, C49). *)
From Coq Require Import QArith Permutation.
From Verif Require Import Base Bytes PyStr Dict SchedModel SchedSpec SchedProofs MctsModel MctsSpec MctsCellProofs MctsTreeProofs.
Open Scope Z_scope.

Definition shallow (d : nat) (root : node) : Prop := forall p x, node_at p root = Some x -> (List.length p <= d)%nat.

(** ** One simulation *)
Section Sim.
Variable tp : tparams.
Let b := branching (tp_splits tp).
Hypothesis b_pos : (1 <= b)%nat.
Variable choose : nat -> node -> option (nat * node).
Variable best : node -> nat -> Prop.
Hypothesis choose_best : forall k x i c, choose k x = Some (i, c) -> best x i /\ child_of x i c.
Hypothesis choose_some : forall k x cs, n_children x = Some cs -> cs <> [] -> exists i c, choose k x = Some (i, c).

Record simulated (root root' : node) (grown : nat) (path : list nat) : Prop := mkSim {
  si_wf : wf b root';
  si_root : n_children root' <> None;
  si_shallow : shallow (tp_max_depth tp) root';
  si_size : count_tree_size root' = (count_tree_size root + grown)%nat;
  si_at : node_at path root' <> None;
  si_length : (1 <= List.length path <= tp_max_depth tp)%nat;
  si_old : forall q z0, node_at q root = Some z0 -> exists z, node_at q root' = Some z /\ stats z = stats z0;
  si_new : forall q z, node_at q root' = Some z ->
    (exists z0, node_at q root = Some z0 /\ stats z = stats z0) \/ (node_at q root = None /\ z = fresh tp);
  si_choice : exists p0 leaf, descends best root p0 /\ node_at p0 root = Some leaf /\
    ((path = p0 /\ root' = root /\ (List.length p0 = tp_max_depth tp \/ n_visits leaf = tp_initial_visits tp)) \/
     (exists i, path = p0 ++ [i] /\ n_visits leaf <> tp_initial_visits tp /\ root' = update_at (expanded tp) p0 root /\ best (expanded tp leaf) i))
}.

Lemma sim_run_ok root k : wf b root -> n_children root <> None -> shallow (tp_max_depth tp) root ->
  exists root' grown k' path, sim_run choose tp k root = (root', grown, k', Ok path) /\ simulated root root' grown path.
Proof.
  intros W NR SH. destruct (walk_ok b b_pos choose best choose_best choose_some root W k) as (p0 & leaf & E & D & A & N).
  unfold sim_run. rewrite E. destruct p0 as [|i0 p]; [cbn in A; congruence|]. set (p0 := i0 :: p) in *. rewrite A.
  assert (1 <= List.length p0)%nat as L1 by (cbn; lia). pose proof (SH _ _ A) as L2. change (Nat.ltb (List.length p0) (tp_max_depth tp)) with (Nat.ltb (List.length p0) (tp_max_depth tp)).
  destruct (Nat.ltb_spec (List.length p0) (tp_max_depth tp)) as [LT|GE]; cbn [andb].
  - unfold is_ripe. destruct (Z.eqb_spec (n_visits leaf) (tp_initial_visits tp)) as [V|V]; cbn [negb].
    + do 4 eexists. split; [reflexivity|]. constructor; auto; try lia; try congruence.
      * intros q z0 H. exists z0. auto.
      * intros q z H. left. exists z. auto.
      * exists p0, leaf. split; [exact D|]. split; [exact A|]. left. auto.
    + destruct (choose_some (k + List.length p0)%nat (expanded tp leaf) (repeat (fresh tp) b) eq_refl) as (i & c & EC).
      { intros Z. apply (f_equal (@List.length _)) in Z. rewrite repeat_length in Z. cbn in Z. lia. }
      rewrite EC. destruct (choose_best _ _ _ _ EC) as [B (cs & Ec & Ei)]. cbn in Ec. injection Ec as <-.
      assert (i < b)%nat as IB. { unfold b. rewrite <- (repeat_length (fresh tp)). apply nth_error_Some. congruence. }
      do 4 eexists. split; [reflexivity|]. constructor.
      * eapply expand_wf; eauto.
      * unfold p0 in *. cbn [update_at]. cbn in A. destruct (n_children root) as [cs0|]; [|congruence]. destruct (nth_error cs0 i0); [|discriminate]. cbn. discriminate.
      * intros q z H. destruct (expand_new tp p0 root leaf A N q z H) as [(z0 & H0 & _)|(j & -> & _)]; [exact (SH _ _ H0)|].
        rewrite app_length. cbn [List.length]. lia.
      * eapply expand_size; eauto.
      * rewrite (expand_child tp p0 root leaf i A IB). discriminate.
      * rewrite app_length. cbn [List.length]. lia.
      * exact (expand_old tp p0 root leaf A N).
      * intros q z H. destruct (expand_new tp p0 root leaf A N q z H) as [X|(j & -> & _ & ->)]; [left; exact X|right].
        split; [|reflexivity]. rewrite node_at_app, A, node_at_one, N. reflexivity.
      * exists p0, leaf. split; [exact D|]. split; [exact A|]. right. exists i. auto.
  - do 4 eexists. split; [reflexivity|]. constructor; auto; try lia; try congruence.
    + intros q z0 H. exists z0. auto.
    + intros q z H. left. exists z. auto.
    + exists p0, leaf. split; [exact D|]. split; [exact A|]. left. split; [reflexivity|]. split; [reflexivity|]. left. lia.
Qed.
End Sim.

(** ** Counting *)
Lemma count_zero {A} (f : A -> bool) l : (forall x, In x l -> f x = false) -> count f l = 0.
Proof.
  intros H. unfold count. induction l as [|x l IH]; [reflexivity|]. cbn [filter]. rewrite (H x) by (left; reflexivity).
  apply IH. intros y I. apply H. right. exact I.
Qed.
Lemma count_cons {A} (f : A -> bool) x l : count f (x :: l) = (if f x then 1 else 0) + count f l.
Proof. unfold count. cbn [filter]. destruct (f x); cbn [List.length]; lia. Qed.
Lemma count_app {A} (f : A -> bool) l l' : count f (l ++ l') = count f l + count f l'.
Proof. unfold count. rewrite filter_app, app_length. lia. Qed.

Lemma at_prefix p q root : prefix p q -> node_at q root <> None -> node_at p root <> None.
Proof. intros (r & ->) H E. apply H. rewrite node_at_app, E. reflexivity. Qed.

Lemma no_passes tp root l p : shows tp root l -> node_at p root = None ->
  count (passes_through p) (l_done l) = 0 /\ count (won_through p) (l_done l) = 0.
Proof.
  intros (_ & H2 & _) N. split; apply count_zero; intros [n [[q w]|]] I; unfold passes_through, won_through; cbn [snd]; auto;
    destruct (prefixb p q) eqn:E; auto; exfalso; apply prefixb_spec in E; exact (at_prefix _ _ _ E (H2 _ _ _ I) N).
Qed.

Lemma shows_simulated tp best root root' grown path l n tr : shows tp root l -> simulated tp best root root' grown path ->
  shows tp root' (mkL (l_done l) ((n, path) :: l_out l) tr).
Proof.
  intros SW SI. pose proof SW as (H1 & H2 & H3). split; [|split]; cbn [l_done l_out].
  - intros p x E. destruct (si_new _ _ _ _ _ _ SI p x E) as [(z0 & E0 & S)|[N ->]].
    + destruct (H1 p z0 E0) as [A B]. unfold stats in S. injection S as S1 S2. rewrite S1, S2. auto.
    + destruct (no_passes _ _ _ _ SW N) as [A B]. rewrite A, B. cbn. split; lia.
  - intros m q w I E. destruct (node_at q root) as [z0|] eqn:E0; [|exact (H2 _ _ _ I E0)].
    destruct (si_old _ _ _ _ _ _ SI q z0 E0) as (z & Ez & _). congruence.
  - intros m q [I|I] E.
    + injection I as <- <-. exact (si_at _ _ _ _ _ _ SI E).
    + destruct (node_at q root) as [z0|] eqn:E0; [|exact (H3 _ _ I E0)]. destruct (si_old _ _ _ _ _ _ SI q z0 E0) as (z & Ez & _). congruence.
Qed.

Lemma shows_result tp root l n path w o1 o2 tr : shows tp root l -> l_out l = o1 ++ (n, path) :: o2 ->
  shows tp (update_stats w path root) (mkL ((n, Some (path, w)) :: l_done l) (o1 ++ o2) tr).
Proof.
  intros (H1 & H2 & H3) EO. assert (node_at path root <> None) as NP by (apply (H3 n); rewrite EO; apply in_or_app; right; left; reflexivity).
  assert (forall q, node_at q root <> None -> node_at q (update_stats w path root) <> None) as KE.
  { intros q NQ E. pose proof (update_stats_at w path root NP q) as U. rewrite E in U. destruct (node_at q root); [exact U|congruence]. }
  split; [|split]; cbn [l_done l_out].
  - intros p x E. pose proof (update_stats_at w path root NP p) as U. rewrite E in U. destruct (node_at p root) as [z0|] eqn:E0; [|contradiction].
    destruct (H1 p z0 E0) as [A B]. rewrite !count_cons.
    change (passes_through p (n, Some (path, w))) with (prefixb p path). change (won_through p (n, Some (path, w))) with (prefixb p path && w).
    unfold stats, plus_game in U. destruct (prefixb p path); cbn [andb] in *; [destruct w|]; injection U as U1 U2; cbn [fst snd] in *; cbn [andb]; rewrite U1, U2; lia.
  - intros m q v [I|I]; apply KE; [injection I as <- <- <-; exact NP|exact (H2 _ _ _ I)].
  - intros m q I. apply KE. apply (H3 m). rewrite EO. apply in_or_app. apply in_app_or in I. destruct I; [left|right; right]; assumption.
Qed.

Lemma shows_error tp root l n path o1 o2 tr : shows tp root l -> l_out l = o1 ++ (n, path) :: o2 ->
  shows tp root (mkL ((n, None) :: l_done l) (o1 ++ o2) tr).
Proof.
  intros (H1 & H2 & H3) EO. split; [|split]; cbn [l_done l_out].
  - intros p x E. rewrite !count_cons. cbn [passes_through won_through snd]. destruct (H1 p x E). lia.
  - intros m q v [I|I]; [discriminate|exact (H2 _ _ _ I)].
  - intros m q I. apply (H3 m). rewrite EO. apply in_or_app. apply in_app_or in I. destruct I; [left|right; right]; assumption.
Qed.

Lemma shows_saved tp root l tr : shows tp root l -> shows tp root (mkL (l_done l) [] tr).
Proof. intros (H1 & H2 & H3). split; [exact H1|]. split; [exact H2|]. intros ? ? []. Qed.

Lemma new_root_at tp p x : node_at p (new_root tp) = Some x ->
  (p = [] \/ exists i, p = [i] /\ (i < branching (tp_splits tp))%nat) /\ stats x = (tp_initial_wins tp, tp_initial_visits tp).
Proof.
  intros E. destruct p as [|i p]; [cbn in E; injection E as <-; split; [left|]; reflexivity|].
  cbn [new_root expanded node_at n_children] in E. destruct (nth_error (repeat (fresh tp) (branching (tp_splits tp))) i) as [c|] eqn:Ei; [|discriminate].
  assert (i < branching (tp_splits tp))%nat as L. { rewrite <- (repeat_length (fresh tp)). apply nth_error_Some. congruence. }
  apply nth_error_In, repeat_spec in Ei. subst c. destruct p; [|discriminate]. cbn in E. injection E as <-. split; [right; eauto|reflexivity].
Qed.

Lemma shows_new tp : shows tp (new_root tp) empty_ledger.
Proof.
  split; [|split]; cbn.
  - intros p x E. destruct (new_root_at _ _ _ E) as [_ S]. unfold stats in S. injection S as -> ->. unfold count. cbn. lia.
  - intros ? ? ? [].
  - intros ? ? [].
Qed.

Lemma new_root_ok tp : (1 <= tp_max_depth tp)%nat ->
  wf (branching (tp_splits tp)) (new_root tp) /\ n_children (new_root tp) <> None /\ shallow (tp_max_depth tp) (new_root tp) /\
  count_tree_size (new_root tp) = (1 + branching (tp_splits tp))%nat.
Proof.
  intros D. split; [|split; [|split]].
  - constructor; [apply repeat_length|]. apply Forall_forall. intros y I. apply repeat_spec in I. subst y. constructor.
  - discriminate.
  - intros p x E. destruct (new_root_at _ _ _ E) as [[->|(i & -> & _)] _]; cbn; lia.
  - unfold new_root. change (expanded tp (fresh tp)) with (update_at (expanded tp) [] (fresh tp)). rewrite (expand_size tp [] (fresh tp) (fresh tp)); reflexivity.
Qed.

(** ** Dictionaries *)
Lemma iget_in {A} k (d : list (nat * A)) v : iget k d = Some v -> In (k, v) d.
Proof. induction d as [|[k' v'] d IH]; [discriminate|]. cbn. destruct (Nat.eqb_spec k k') as [->|N]; [intros E; left; congruence|right; auto]. Qed.
Lemma iget_none {A} k (d : list (nat * A)) : ~ In k (map fst d) -> iget k d = None.
Proof. intros N. destruct (iget k d) eqn:E; [|reflexivity]. exfalso. apply N. apply iget_in in E. apply (in_map fst) in E. exact E. Qed.
Lemma iget_mid {A} k v (a b : list (nat * A)) : NoDup (map fst (a ++ (k, v) :: b)) -> iget k (a ++ (k, v) :: b) = Some v.
Proof.
  induction a as [|[k' v'] a IH]; cbn; [rewrite Nat.eqb_refl; reflexivity|]. intros ND. inversion ND as [|? ? N ND']; subst.
  destruct (Nat.eqb_spec k k') as [->|_]; [|auto]. exfalso. apply N. rewrite map_app. apply in_or_app. right. left. reflexivity.
Qed.
Lemma idel_none {A} k (d : list (nat * A)) : ~ In k (map fst d) -> idel k d = d.
Proof.
  induction d as [|[k' v'] d IH]; [reflexivity|]. cbn. intros N. destruct (Nat.eqb_spec k k') as [->|_]; [exfalso; apply N; left; reflexivity|].
  cbn. f_equal. apply IH. intros I. apply N. right. exact I.
Qed.
Lemma idel_mid {A} k v (a b : list (nat * A)) : NoDup (map fst (a ++ (k, v) :: b)) -> idel k (a ++ (k, v) :: b) = a ++ b.
Proof.
  intros ND. unfold idel. rewrite filter_app. cbn [filter fst]. rewrite Nat.eqb_refl. cbn [negb].
  rewrite map_app in ND. cbn [map fst] in ND. apply NoDup_remove_2 in ND.
  f_equal; apply idel_none; intros I; apply ND, in_or_app; auto.
Qed.

Lemma parts_exist coords splits : Forall2 lt coords splits -> forall r, List.length r = List.length splits -> exists r1, parts splits coords r r1.
Proof.
  induction 1 as [|c s cs splits L F IH]; intros r LR; [destruct r; [|discriminate]; exists []; constructor|].
  destruct r as [|j r]; [discriminate|]. destruct (IH r) as (r1 & H); [cbn in LR; lia|].
  exists ((fst j + (snd j - fst j) * (qn c / qn s), fst j + (snd j - fst j) * (qn (S c) / qn s))%Q :: r1).
  constructor; [split; cbn; reflexivity|exact H].
Qed.

(** ** The tuner *)
Section Tuner.
Context {V P : Type}.
Variable veqb : V -> V -> bool.
Hypothesis veqb_refl : forall x, veqb x x = true.
Variable less : Z -> Z * Z -> Z * Z -> bool.
Variable cf : mconfig V P.
Hypothesis cf_ok : usable cf.
Let tp := mc_tree cf.
Let b := branching (tp_splits tp).

Lemma b_positive : (1 <= b)%nat.
Proof. unfold b. rewrite branching_product. apply product_pos. exact (proj1 cf_ok). Qed.

Definition like_cf (c : mconfig V P) : Prop := exists r, c = with_random r cf.
Definition bag_of (l : ledger) : bag := mkB (map fst (l_done l)) (map fst (l_out l)).

Record MInv (t : tuner V P) (l : ledger) : Prop := mkMI {
  mi_conf : like_cf (mt_conf t);
  mi_sched : R (mt_sched t) (bag_of l);
  mi_sims : mt_sims t = l_out l;
  mi_halt : mt_halt t = l_trouble l;
  mi_shows : shows tp (mt_root t) l;
  mi_wf : wf b (mt_root t);
  mi_root : n_children (mt_root t) <> None;
  mi_shallow : shallow (tp_max_depth tp) (mt_root t);
  mi_count : mt_count t = count_tree_size (mt_root t)
}.

Record SInv (st : mstatus V) (l : ledger) : Prop := mkSI {
  sv_sched : exists s, mst_sched st = sched_getstate s /\ R s (bag_of l);
  sv_shows : shows tp (mst_root st) l;
  sv_wf : wf b (mst_root st);
  sv_root : n_children (mst_root st) <> None;
  sv_shallow : shallow (tp_max_depth tp) (mst_root st);
  sv_path0 : path0 cf = Ok (mst_path0 st)
}.

Lemma nodup_out t l : MInv t l -> NoDup (map fst (l_out l)).
Proof. intros I. pose proof (R_NoDup _ _ (mi_sched _ _ I)) as ND. cbn in ND. apply NoDup_app_inv in ND. destruct ND as (_ & ND & _). apply NoDup_app_inv in ND. apply ND. Qed.

Lemma path_cell path : Forall (fun i => (i < b)%nat) path -> forall r, List.length r = List.length (tp_splits tp) ->
  exists r', cell (tp_splits tp) r path r' /\ List.length r' = List.length (tp_splits tp).
Proof.
  induction 1 as [|i path L F IH]; intros r LR; [exists r; split; [constructor|exact LR]|].
  assert (is_child (tp_splits tp) i (coordinates (tp_splits tp) i)) as CH.
  { apply coordinates_child; [exact (proj1 cf_ok)|]. rewrite <- branching_product. exact L. }
  assert (exists r1, parts (tp_splits tp) (coordinates (tp_splits tp) i) r r1) as (r1 & P1).
  { apply parts_exist; [exact (proj1 CH)|exact LR]. }
  destruct (IH r1 (parts_length _ _ _ _ P1)) as (r2 & C & L2). exists r2. split; [econstructor; eauto|exact L2].
Qed.

Lemma params_total path : Forall (fun i => (i < b)%nat) path -> exists l, parameters_for_path tp path = Ok l.
Proof.
  intros F. destruct (path_cell path F (unit_cube (tp_splits tp))) as (r & C & _); [unfold unit_cube; apply map_length|].
  destruct (parameters_middle tp path r (proj1 cf_ok) C) as (l & E & _). eauto.
Qed.

Lemma scale_total scales l : (forall f q, In f scales -> f q <> None) ->
  exists vs : list V, scale_with scales l = Ok vs /\ Forall2 (fun (fx : (Q -> option V) * Q) v => (fst fx) (snd fx) = Some v) (combine scales l) vs.
Proof.
  revert l. induction scales as [|f scales IH]; intros [|q l] H; cbn [scale_with combine]; try (exists (@nil V); split; [reflexivity|constructor]).
  destruct (f q) as [v|] eqn:E; [|exfalso; exact (H f q (or_introl eq_refl) E)].
  destruct (IH l) as (vs & E1 & F); [intros; apply H; right; assumption|]. exists (v :: vs). cbn [bind]. rewrite E1. split; [reflexivity|constructor; auto].
Qed.

Lemma path0_total : exists p, path0 cf = Ok p.
Proof.
  unfold path0. destruct (params_total [O]) as (l & E); [constructor; [exact b_positive|constructor]|]. fold tp. rewrite E. cbn [bind].
  destruct (scale_total (mc_scales cf) l) as (vs & E1 & _); [apply cf_ok|]. exists vs. exact E1.
Qed.
Lemma path0_random r : path0 (with_random r cf) = path0 cf.
Proof. reflexivity. Qed.

Lemma clean_inv r : MInv (set_clean_status (with_random r cf)) empty_ledger.
Proof.
  destruct (new_root_ok tp) as (W & N & S & C); [apply cf_ok|]. constructor; cbn; auto.
  - exists r. reflexivity.
  - apply R_init.
  - apply shows_new.
Qed.

Lemma get_inv t l : MInv t l ->
  match get_game less t with
  | (t', Ok (Some j)) => exists n path, ~ limit_reached (mc_number_of_games cf) l /\ next_number l n /\ path_ok tp path /\ job_for cf n path j /\
      iget (mj_data j) (mt_sims t') = Some path /\ MInv t' (mkL (l_done l) ((n, path) :: l_out l) (l_trouble l))
  | (t', Ok None) => t' = t /\ limit_reached (mc_number_of_games cf) l
  | (_, Err _) => False
  end.
Proof.
  intros I. destruct (mi_conf _ _ I) as (r & EC). unfold get_game. cbv zeta. rewrite EC. cbn [with_random mc_number_of_games mc_tree mc_maker mc_opponent mc_opponent_player].
  destruct (mi_sched _ _ I) as (_ & _ & EI & _).
  assert (issued (mt_sched t) = games_begun l) as EB. { rewrite EI. unfold issued_count, games_begun, bag_of. cbn [b_fixed b_out]. rewrite !map_length. reflexivity. }
  assert ((match mc_number_of_games cf with Some n => issued (mt_sched t) >=? n | None => false end) = true <-> limit_reached (mc_number_of_games cf) l) as LR.
  { unfold limit_reached. destruct (mc_number_of_games cf) as [n|]; [|split; [discriminate|tauto]]. rewrite EB. rewrite Z.geb_le. reflexivity. }
  destruct (match mc_number_of_games cf with Some n => issued (mt_sched t) >=? n | None => false end); [split; [reflexivity|apply LR; reflexivity]|].
  destruct (issue (mt_sched t)) as [s' n] eqn:ES. destruct (R_issue _ _ _ _ (mi_sched _ _ I) ES) as [NX RS].
  destruct (sim_run_ok tp b_positive (choose_uct less (with_random r cf)) (fun x i => exists c, child_of x i c)) with (root := mt_root t) (k := mt_used t)
    as (root' & grown & k' & path & ER & SI).
  - intros k x i c H. apply choose_action_child in H. split; [exists c|]; exact H.
  - intros k x cs. apply choose_action_some.
  - exact (mi_wf _ _ I).
  - exact (mi_root _ _ I).
  - exact (mi_shallow _ _ I).
  - fold tp. rewrite ER. assert (Forall (fun i => (i < b)%nat) path) as FP.
    { destruct (node_at path root') as [y|] eqn:EA; [|exfalso; exact (si_at _ _ _ _ _ _ SI EA)]. exact (proj2 (wf_at _ _ _ _ (si_wf _ _ _ _ _ _ SI) EA)). }
    destruct (params_total path FP) as (pl & EP). rewrite EP. cbn [bind]. unfold scale_parameters. cbn [with_random mc_scales].
    destruct (scale_total (mc_scales cf) pl) as (vs & EV & FV); [apply cf_ok|]. rewrite EV.
    destruct (mc_maker cf vs) as [p|] eqn:EM; [|exfalso; exact (proj2 (proj2 (proj2 cf_ok)) vs EM)].
    destruct (choose_candidate_colour (with_random r cf) k') as [c used'] eqn:ECC.
    assert (mc_colour cf = None \/ mc_colour cf = Some c) as CC.
    { unfold choose_candidate_colour in ECC. cbn [with_random mc_colour] in ECC. destruct (mc_colour cf); [injection ECC as <- _; right|left]; reflexivity. }
    assert (~ In n (map fst (l_out l))) as NI. { destruct NX as [NT _]. intros X. apply NT. right. exact X. }
    exists n, path. split; [intros X; apply LR in X; discriminate|]. split; [exact NX|]. split.
    { split; [exact (si_length _ _ _ _ _ _ SI)|]. rewrite <- branching_product. exact FP. }
    split. { exists pl, vs, p. do 5 (split; [first [exact EP|exact FV|exact EM|reflexivity]|]). cbv zeta. cbn [mj_black mj_white]. destruct c; [left|right]; (split; [reflexivity|split; [reflexivity|]]); destruct CC as [CC|CC]; rewrite CC; discriminate. }
    split. { cbn [set_sims set_tree mt_sims mj_data iset iget]. rewrite Nat.eqb_refl. reflexivity. }
    constructor; cbn [set_sims set_tree mt_conf mt_sched mt_root mt_count mt_sims mt_halt mt_desc mt_used l_out l_trouble l_done].
    + exists r. exact EC.
    + exact RS.
    + unfold iset. rewrite (mi_sims _ _ I). rewrite idel_none by exact NI. reflexivity.
    + exact (mi_halt _ _ I).
    + eapply shows_simulated; [exact (mi_shows _ _ I)|exact SI].
    + exact (si_wf _ _ _ _ _ _ SI).
    + exact (si_root _ _ _ _ _ _ SI).
    + exact (si_shallow _ _ _ _ _ _ SI).
    + rewrite (si_size _ _ _ _ _ _ SI), (mi_count _ _ I). reflexivity.
Qed.

Lemma split_out (l : ledger) o1 n o2 : map fst (l_out l) = o1 ++ n :: o2 ->
  exists q1 path q2, l_out l = q1 ++ (n, path) :: q2 /\ map fst q1 = o1 /\ map fst q2 = o2.
Proof.
  generalize (l_out l). clear. intros d. revert o1. induction d as [|[k v] d IH]; intros o1 E; [destruct o1; discriminate|].
  destruct o1 as [|x o1]; cbn in E; injection E as -> E.
  - exists [], v, d. auto.
  - destruct (IH o1 E) as (q1 & path & q2 & -> & A & B). exists ((x, v) :: q1), path, q2. cbn. rewrite A. auto.
Qed.

Lemma result_inv t l r : MInv t l ->
  match process_game_result r t with
  | (t', Ok _) => exists o1 path o2 w, dget (mc_opponent cf) (mr_descriptions r) <> None /\ l_out l = o1 ++ (mr_data r, path) :: o2 /\
      candidate_won (mc_opponent cf) r w /\ MInv t' (mkL ((mr_data r, Some (path, w)) :: l_done l) (o1 ++ o2) false)
  | (t', Err e) => e = KeyError /\ (~ In (mr_data r) (map fst (l_out l)) \/ dget (mc_opponent cf) (mr_descriptions r) = None) /\
      MInv t' (mkL (l_done l) (l_out l) false)
  end.
Proof.
  intros I. pose proof (nodup_out _ _ I) as ND. destruct (mi_conf _ _ I) as (rr & EC). unfold process_game_result. cbv zeta. rewrite EC. cbn [with_random mc_opponent mc_tree].
  destruct (dget (mc_opponent cf) (mr_descriptions r)) as [desc|] eqn:ED.
  - destruct (fix_token (mt_sched t) (mr_data r)) as [s' x] eqn:EF. destruct (R_fix _ _ _ _ _ (mi_sched _ _ I) EF) as [(o1 & o2 & EO & -> & RS)|(NI & -> & ->)].
    + cbn [bag_of b_out b_fixed] in EO, RS. destruct (split_out l o1 (mr_data r) o2 EO) as (q1 & path & q2 & EL & Q1 & Q2).
      cbn [set_flags mt_sims set_sims set_tree mt_sched mt_root mt_count mt_used mt_conf]. rewrite (mi_sims _ _ I), EL. rewrite EL in ND. rewrite iget_mid, idel_mid by exact ND.
      assert (Forall (fun i => (i < b)%nat) path) as FP.
      { pose proof (mi_shows _ _ I) as (_ & _ & H3). assert (node_at path (mt_root t) <> None) as NP by (apply (H3 (mr_data r)); rewrite EL; apply in_or_app; right; left; reflexivity).
        destruct (node_at path (mt_root t)) as [y|] eqn:EA; [|congruence]. exact (proj2 (wf_at _ _ _ _ (mi_wf _ _ I) EA)). }
      destruct (params_total path FP) as (pl & EP). fold tp. rewrite EP. cbn [bind]. unfold scale_parameters. cbn [with_random mc_scales].
      destruct (scale_total (mc_scales cf) pl) as (vs & EV & _); [apply cf_ok|]. rewrite EV.
      set (w := match mr_loser r with Some c => bytes_eqb c (mc_opponent cf) | None => false end).
      exists q1, path, q2, w. split; [discriminate|]. split; [reflexivity|]. split.
      { unfold candidate_won, w. destruct (mr_loser r) as [c|]; [|split; discriminate]. destruct (bytes_eqb_spec c (mc_opponent cf)) as [D|D]; split; congruence. }
      constructor; cbn [set_sims set_tree set_flags mt_conf mt_sched mt_root mt_count mt_sims mt_halt mt_desc mt_used l_out l_trouble l_done]; auto.
      * exists rr. exact EC.
      * unfold bag_of. cbn [l_done l_out map fst]. rewrite map_app, Q1, Q2. exact RS.
      * eapply shows_result; [exact (mi_shows _ _ I)|exact EL].
      * apply update_stats_wf. exact (mi_wf _ _ I).
      * intros X. apply update_stats_children in X. exact (mi_root _ _ I X).
      * intros p x E. pose proof (mi_shows _ _ I) as (_ & _ & H3).
        assert (node_at path (mt_root t) <> None) as NP by (apply (H3 (mr_data r)); rewrite EL; apply in_or_app; right; left; reflexivity).
        pose proof (update_stats_at w path _ NP p) as U. rewrite E in U. destruct (node_at p (mt_root t)) as [z|] eqn:EZ; [|contradiction]. exact (mi_shallow _ _ I _ _ EZ).
      * rewrite update_stats_size. exact (mi_count _ _ I).
    + split; [reflexivity|]. split; [left; exact NI|]. destruct I as [I1 I2 I3 I4 I5 I6 I7 I8 I9]. constructor; cbn; auto.
  - split; [reflexivity|]. split; [right; reflexivity|]. destruct I as [I1 I2 I3 I4 I5 I6 I7 I8 I9]. constructor; cbn; auto.
Qed.

Lemma error_inv t l n : MInv t l ->
  match process_game_error n t with
  | (t', Ok v) => exists o1 path o2, v = (l_trouble l, false) /\ l_out l = o1 ++ (n, path) :: o2 /\
      MInv t' (mkL ((n, None) :: l_done l) (o1 ++ o2) true)
  | (t', Err e) => e = KeyError /\ ~ In n (map fst (l_out l)) /\ t' = t
  end.
Proof.
  intros I. pose proof (nodup_out _ _ I) as ND. unfold process_game_error. rewrite (mi_sims _ _ I).
  destruct (iget n (l_out l)) as [path|] eqn:EG.
  - apply iget_in in EG. apply in_split in EG. destruct EG as (q1 & q2 & EL). cbn [set_sims mt_sched].
    destruct (fix_token (mt_sched t) n) as [s' x] eqn:EF. destruct (R_fix _ _ _ _ _ (mi_sched _ _ I) EF) as [(o1 & o2 & EO & -> & RS)|(NI & _ & _)].
    + cbn [bag_of b_out b_fixed] in EO, RS. rewrite EL in ND, EO |- *. rewrite idel_mid by exact ND.
      exists q1, path, q2. cbn [set_sims mt_halt]. rewrite (mi_halt _ _ I). split; [reflexivity|]. split; [reflexivity|].
      assert (o1 = map fst q1 /\ o2 = map fst q2) as [-> ->].
      { rewrite map_app in EO, ND. cbn [map fst] in EO, ND. clear -EO ND. revert o1 EO ND. generalize (map fst q1). intros a. induction a as [|x a IH]; intros o1 EO ND.
        - destruct o1 as [|y o1]; cbn in EO; [injection EO as ->; auto|]. injection EO as E1 E2. subst y. cbn in ND. inversion ND as [|? ? N _]; subst. exfalso. apply N. rewrite E2. apply in_or_app. right. left. reflexivity.
        - destruct o1 as [|y o1]; cbn in EO; injection EO as E1 E2.
          + subst x. cbn in ND. inversion ND as [|? ? N _]; subst. exfalso. apply N. apply in_or_app. right. left. reflexivity.
          + subst y. cbn in ND. inversion ND; subst. destruct (IH o1) as [-> ->]; auto. }
      pose proof (shows_error _ _ _ n path q1 q2 true (mi_shows _ _ I) EL) as SE.
      destruct I as [I1 I2 I3 I4 I5 I6 I7 I8 I9]. constructor; cbn; auto. unfold bag_of. cbn [l_done l_out map fst]. rewrite map_app. exact RS.
    + exfalso. apply NI. cbn. rewrite EL, map_app. apply in_or_app. right. left. reflexivity.
  - split; [reflexivity|]. split; [|reflexivity]. intros X. apply in_map_iff in X. destruct X as ([k v] & <- & IX). cbn in EG.
    apply in_split in IX. destruct IX as (a & c & EL). rewrite EL in EG, ND. rewrite iget_mid in EG by exact ND. discriminate.
Qed.

Lemma status_inv t l : MInv t l -> exists st, get_status t = Ok st /\ SInv st l.
Proof.
  intros I. destruct (mi_conf _ _ I) as (r & EC). unfold get_status. rewrite EC, path0_random. destruct path0_total as (p & E). rewrite E. cbn [bind].
  eexists. split; [reflexivity|]. destruct I as [I1 I2 I3 I4 I5 I6 I7 I8 I9]. constructor; cbn; auto. exists (mt_sched t). auto.
Qed.

Lemma list_eqb_refl l : list_eqb veqb l l = true.
Proof. induction l as [|x l IH]; [reflexivity|]. cbn. rewrite veqb_refl. exact IH. Qed.

Lemma load_inv st l r : SInv st l -> exists t, set_status veqb (with_random r cf) st = Ok t /\ MInv t (mkL (l_done l) [] true).
Proof.
  intros S. unfold set_status. cbn [with_random mc_tree]. unfold set_root. pose proof (sv_wf _ _ S) as W. inversion W as [w v E|cs w v L F E].
  - exfalso. apply (sv_root _ _ S). rewrite <- E. reflexivity.
  - cbn [n_children]. rewrite E. destruct cs as [|c cs]; [cbn in L; pose proof b_positive; lia|]. rewrite L, Nat.eqb_refl.
    change (path0 _) with (path0 cf). rewrite (sv_path0 _ _ S). cbn [bind]. rewrite list_eqb_refl.
    destruct (sv_sched _ _ S) as (s & ES & RS). eexists. split; [reflexivity|]. constructor; cbn; auto.
    + exists r. reflexivity.
    + rewrite ES. exact (R_rollback _ _ (R_pickle _ _ RS)).
    + apply shows_saved. exact (sv_shows _ _ S).
    + exact (sv_root _ _ S).
    + exact (sv_shallow _ _ S).
Qed.

Definition MSys (s : tuner V P * option (mstatus V)) (x : ledger * ledger) : Prop :=
  MInv (fst s) (fst x) /\
  match snd s with Some st => SInv st (snd x) | None => snd x = empty_ledger end.

Lemma mdo_step s x c : MSys s x -> exists s' e x', mdo veqb less cf s c = Some (s', e) /\ mstep cf x e x' /\ MSys s' x'.
Proof.
  destruct s as [t st], x as [l v]. intros [I S]. cbn [fst snd] in I, S. unfold mdo. destruct c as [|r|n| |random].
  - pose proof (get_inv t l I) as G. destruct (get_game less t) as [t' [[j|]|e]]; [| |contradiction].
    + destruct G as (n & path & A1 & A2 & A3 & A4 & A5 & A6). do 3 eexists. split; [reflexivity|]. rewrite A5. split; [apply ms_get; eauto|split; assumption].
    + destruct G as [-> G]. do 3 eexists. split; [reflexivity|]. split; [apply ms_none; exact G|split; assumption].
  - pose proof (result_inv t l r I) as G. destruct (process_game_result r t) as [t' [[]|e]].
    + destruct G as (o1 & path & o2 & w & A1 & A2 & A3 & A4). do 3 eexists. split; [reflexivity|]. split; [eapply ms_result; eauto|split; assumption].
    + destruct G as (-> & A1 & A2). do 3 eexists. split; [reflexivity|]. split; [apply ms_bad_result; exact A1|split; assumption].
  - pose proof (error_inv t l n I) as G. destruct (process_game_error n t) as [t' [y|e]].
    + destruct G as (o1 & path & o2 & -> & A2 & A3). do 3 eexists. split; [reflexivity|]. split; [eapply ms_error; eauto|split; assumption].
    + destruct G as (-> & A1 & ->). do 3 eexists. split; [reflexivity|]. split; [apply ms_bad_error; exact A1|split; assumption].
  - destruct (status_inv t l I) as (st' & E & S'). rewrite E. do 3 eexists. split; [reflexivity|]. split; [apply ms_save|split; assumption].
  - destruct st as [st|].
    + destruct (load_inv st v random S) as (t' & E & I'). rewrite E. do 3 eexists. split; [reflexivity|]. split; [apply ms_restart|split; assumption].
    + subst v. do 3 eexists. split; [reflexivity|]. split; [apply ms_restart|]. split; [apply clean_inv|reflexivity].
Qed.

Lemma mrun_steps cs : forall s x, MSys s x -> exists s' es x', mrun veqb less cf s cs = Some (s', es) /\ msteps cf x es x' /\ MSys s' x'.
Proof.
  induction cs as [|c cs IH]; intros s x I; cbn [mrun]; [exists s, [], x; split; [reflexivity|split; [constructor|exact I]]|].
  destruct (mdo_step s x c I) as (s1 & e & x1 & E & M & I1). rewrite E. destruct (IH s1 x1 I1) as (s2 & es & x2 & E2 & M2 & I2). rewrite E2.
  exists s2, (e :: es), x2. split; [reflexivity|]. split; [econstructor; eauto|exact I2].
Qed.

Lemma init_sys random : MSys (set_clean_status (with_random random cf), None) (empty_ledger, empty_ledger).
Proof. split; [apply clean_inv|reflexivity]. Qed.
End Tuner.
