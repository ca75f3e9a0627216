(** Queries answer as in the built world (C68). *)
From Verif Require Import Base Bytes PyStr Dict SgfGrammarModel SgfGrammarSpec SgfGrammarProofs SgfTreeConvModel SgfTreeConvProofs
  CommonModel SgfPropsModel SgfTreeModel SgfTreeSpec SgfTreeProofs SgfNodeProofs SgfGameProofs SgfTreeMainProofs SgfNavProofs SgfSaveProofs
  SgfLazyModel SgfLazySpec SgfLazyBuildProofs SgfLazyLoadProofs SgfLazyProofs SgfLazyOpsProofs SgfLazyMainProofs.

(** ** Queries on properties *)
Section Sim.
Context (G : nat -> bool) (w1 w2 : world) (S : sim G w1 w2).

Lemma q_node n : match node_at w1 n, node_at w2 n with
  | Some x1, Some x2 => t_props x1 = t_props x2 /\ pres_of w1 x1 = pres_of w2 x2
  | None, None => True
  | _, _ => False
  end.
Proof.
  destruct (node_at w1 n) as [x1|] eqn:E1.
  - destruct (sim_at _ _ _ _ _ S E1) as (x2 & E2). rewrite E2. split; [eapply sim_node; eauto|eapply sim_pres; eauto].
  - destruct (node_at w2 n) as [x2|] eqn:E2; auto. destruct (sim_at _ _ _ _ _ (sim_sym _ _ _ S) E2). congruence.
Qed.
Ltac q := intros; match goal with |- context [node_at w1 ?n] => generalize (q_node n); destruct (node_at w1 n), (node_at w2 n);
  let Q := fresh in let A := fresh in let B := fresh in intros Q; first [contradiction|destruct Q as [A B]; rewrite ?A, ?B; reflexivity|reflexivity] end.
Lemma q_has n k : has_property w1 n k = has_property w2 n k.
Proof. unfold has_property. q. Qed.
Lemma q_raw n k : get_raw_list w1 n k = get_raw_list w2 n k.
Proof. unfold get_raw_list. q. Qed.
Lemma q_get n k : get_prop w1 n k = get_prop w2 n k.
Proof. unfold get_prop. rewrite q_raw. destruct (get_raw_list w2 n k); cbn [bind]; auto. q. Qed.
Lemma q_size n : size_of w1 n = size_of w2 n.
Proof. unfold size_of. q. Qed.
Lemma q_move n : get_move w1 n = get_move w2 n.
Proof. unfold get_move. rewrite q_size. assert (get_raw_move w1 n = get_raw_move w2 n) as ->; [unfold get_raw_move; q|reflexivity]. Qed.
Lemma q_setup n : get_setup_stones w1 n = get_setup_stones w2 n.
Proof. unfold get_setup_stones, get_points. rewrite !q_get. reflexivity. Qed.

(** ** Upwards *)
Context (W : wf w2).
Lemma q_find k : forall fuel n, usable G w1 w2 n -> SgfTreeModel.find fuel w1 n k = SgfTreeModel.find fuel w2 n k.
Proof.
  induction fuel as [|f IH]; intros n [L|(x1 & x2 & g & E1 & E2 & P1 & P2 & _)]; cbn [SgfTreeModel.find];
    try (rewrite E1, E2, P1, P2; destruct (sim_node _ _ _ S _ _ _ E1 E2) as (_ & -> & _); reflexivity);
    rewrite <- (live_eq _ _ _ _ S L); destruct L as (x & E & H); rewrite E; destruct (dmem _ _); auto;
    destruct (t_parent x) as [p|] eqn:P; auto.
  destruct (live_parent _ _ _ _ _ _ S W E H P) as (y & Ey & Gy & _). apply IH. left. exists y. auto.
Qed.
Lemma q_ancestors : forall fuel n, usable G w1 w2 n -> ancestors fuel w1 n = ancestors fuel w2 n.
Proof.
  induction fuel as [|f IH]; intros n [L|(x1 & x2 & g & E1 & E2 & P1 & P2 & _)]; cbn [ancestors];
    try (rewrite E1, E2, P1, P2; reflexivity);
    rewrite <- (live_eq _ _ _ _ S L); destruct L as (x & E & H); rewrite E;
    destruct (t_parent x) as [p|] eqn:P; auto.
  destruct (live_parent _ _ _ _ _ _ S W E H P) as (y & Ey & Gy & _). rewrite IH; auto. left. exists y. auto.
Qed.
Lemma q_above n : usable G w1 w2 n -> get_sequence_above w1 n = get_sequence_above w2 n.
Proof. intros U. unfold get_sequence_above. rewrite (sim_len _ _ _ S), q_ancestors; auto. Qed.

(** ** Downwards *)
Lemma live_kid n x c : node_at w1 n = Some x -> G (t_owner x) = true -> In c (t_kids x) -> live G w1 c.
Proof.
  intros E H I. assert (node_at w2 n = Some x) as E2 by (rewrite <- (live_eq _ _ _ n S) by (exists x; auto); exact E).
  destruct (wf_kids _ W _ _ _ E2 I) as (y & Ey & Py). destruct (wf_parent _ W _ _ _ Ey Py) as (z & Ez & Oz). assert (z = x) as -> by congruence.
  destruct (sim_at _ _ _ _ _ (sim_sym _ _ _ S) Ey) as (y1 & Ey1). destruct (sim_node _ _ _ S _ _ _ Ey1 Ey) as (O & _).
  exists y1. split; auto. congruence.
Qed.
Lemma q_main : forall fuel n, live G w1 n -> main_line fuel w1 n = main_line fuel w2 n.
Proof.
  induction fuel as [|f IH]; intros n L; cbn [main_line]; rewrite <- (live_eq _ _ _ _ S L); destruct L as (x & E & H); rewrite E;
    destruct (t_kids x) as [|c l] eqn:K; auto. rewrite IH; auto. eapply live_kid; eauto. rewrite K. left. auto.
Qed.
Lemma q_data : forall fuel n, live G w1 n -> tree_data fuel w1 n = tree_data fuel w2 n.
Proof.
  induction fuel as [|f IH]; intros n L; cbn [tree_data]; auto. rewrite <- (live_eq _ _ _ _ S L). destruct L as (x & E & H). rewrite E.
  assert (forall l, incl l (t_kids x) -> mapm (tree_data f w1) l = mapm (tree_data f w2) l) as M.
  { induction l as [|c l IHl]; intros J; auto. cbn [mapm]. rewrite IH, IHl; auto; [intros z Hz; apply J; right; auto|]. eapply live_kid; eauto. apply J. left. auto. }
  rewrite M; auto. intros z; auto.
Qed.
Lemma q_kids n : live G w1 n -> kids_of w1 n = kids_of w2 n.
Proof. intros L. unfold kids_of. rewrite (live_eq _ _ _ _ S L). reflexivity. Qed.
End Sim.

(** ** The main line of a coarse tree *)
Definition linked (w : world) (ls : list (nat * (option nat * list nat))) : Prop :=
  Forall (fun e => exists x, node_at w (fst e) = Some x /\ t_kids x = snd (snd e)) ls.

Lemma linked_app w a b : linked w (a ++ b) -> linked w a /\ linked w b.
Proof. intros H. apply Forall_app in H. exact H. Qed.

Lemma coarse_main w t : lseqs t -> forall p fuel, linked w (links p t) -> (List.length (coarse_line t) <= S fuel)%nat ->
  match lc_sequence t with n :: _ => main_line fuel w n = Ok (coarse_line t) | [] => False end.
Proof.
  induction t as [sq ch IH] using lctree_ind'. intros L. inversion L as [? ? NE F]; subst. cbn [lc_sequence]. destruct sq as [|n sq]; [congruence|].
  clear L NE. revert n. induction sq as [|n' sq IHs]; intros n p fuel LK LE.
  - rewrite links_one in LK. inversion LK as [|? ? (x & Ex & Kx) LK']; subst. cbn [fst snd] in *. clear LK.
    cbn [coarse_line app] in *. destruct ch as [|c ch].
    + destruct fuel; cbn [main_line]; rewrite Ex, Kx; reflexivity.
    + inversion IH as [|? ? Hc0 _]; subst. inversion F as [|? ? Lc _]; subst. pose proof (Hc0 Lc) as Hc. cbn [flat_map] in LK'. apply linked_app in LK'. destruct LK' as [LK1 _].
      destruct c as [[|m sqc] chc]; [inversion Lc; congruence|]. cbn [heads flat_map lc_sequence firstn app] in Kx.
      cbn [List.length] in LE. destruct fuel as [|fuel]; [cbn [coarse_line app List.length] in LE; lia|].
      cbn [main_line]. rewrite Ex, Kx. specialize (Hc _ fuel LK1 ltac:(lia)). cbn [lc_sequence] in Hc. rewrite Hc. reflexivity.
  - rewrite links_cons2 in LK. inversion LK as [|? ? (x & Ex & Kx) LK']; subst. cbn [fst snd] in *.
    cbn [coarse_line app List.length] in *. destruct fuel as [|fuel]; [lia|]. cbn [main_line]. rewrite Ex, Kx.
    specialize (IHs n' (Some n) fuel LK' ltac:(lia)). cbn [lc_sequence coarse_line app] in IHs. rewrite IHs. reflexivity.
Qed.

Lemma coarse_line_length t : (List.length (coarse_line t) <= List.length (llabels t))%nat.
Proof.
  induction t as [sq ch IH] using lctree_ind'. cbn [coarse_line llabels]. rewrite !app_length. destruct ch as [|c ch]; cbn [List.length]; [lia|].
  inversion IH; subst. cbn [flat_map]. rewrite app_length. lia.
Qed.

Lemma labels_bound lw g x t : linv lw -> lgame_at lw g = Some x -> lg_coarse x = Some t -> (List.length (llabels t) <= List.length (lw_slots lw))%nat.
Proof.
  intros I E C. destruct (li_lazy _ I _ _ _ E C) as (_ & ND & _ & OW & _).
  rewrite <- (seq_length (List.length (lw_slots lw)) 0). apply NoDup_incl_length; auto. intros n H. apply OW in H. destruct H as (s & Es & _).
  apply in_seq. split; [lia|]. cbn. apply nth_error_Some. unfold slot_at in Es. congruence.
Qed.

Lemma linked_forced lw g x t : linv lw -> lgame_at lw g = Some x -> lg_coarse x = Some t -> linked (forced lw) (links None t).
Proof.
  intros I E C. destruct (li_lazy _ I _ _ _ E C) as (LS & ND & _ & OW & _). apply Forall_forall. intros [i [p ks]] H. cbn [fst snd].
  assert (In i (llabels t)) as Il. { rewrite <- (links_keys t None LS). apply in_map_iff. exists (i, (p, ks)). auto. }
  apply OW in Il. destruct Il as (s & Es & Os). rewrite forced_at, Es. eexists. split; [reflexivity|]. unfold forced_node. cbn [t_kids].
  unfold final_links. rewrite Os, E, C. rewrite (assoc_in i (p, ks)); auto. rewrite links_keys; auto.
Qed.

Lemma coarse_forced lw g x t : linv lw -> lgame_at lw g = Some x -> lg_coarse x = Some t ->
  main_from (forced lw) (lg_root x) = Ok (coarse_line t).
Proof.
  intros I E C. destruct (li_lazy _ I _ _ _ E C) as (LS & _ & (sq & SQ) & _). pose proof (linked_forced _ _ _ _ I E C) as LK.
  pose proof (labels_bound _ _ _ _ I E C) as LB. pose proof (coarse_line_length t) as CL.
  pose proof (coarse_main (forced lw) t LS None (List.length (w_nodes (forced lw))) LK) as M. rewrite SQ in M. apply M. rewrite forced_length. lia.
Qed.

Lemma root_born lw g x : linv lw -> wf (forced lw) -> lgame_at lw g = Some x ->
  exists s, slot_at lw (lg_root x) = Some s /\ s_owner s = g /\ s_node s <> None.
Proof.
  intros I W E. destruct (lg_coarse x) as [t|] eqn:C.
  - destruct (lazy_root _ _ _ _ I E C) as (sq & ch & s & ks & _ & Es & Os & Ns & _). exists s. split; auto. split; auto. congruence.
  - destruct (wf_game _ W g (as_game x)) as (y & Ey & _ & Oy); [rewrite forced_game, E; reflexivity|]. cbn [as_game g_root] in Ey.
    rewrite forced_at in Ey. destruct (slot_at lw (lg_root x)) as [s|] eqn:Es; [|discriminate]. injection Ey as <-. cbn in Oy.
    exists s. split; auto. split; auto. eapply (li_eager _ I); eauto. rewrite Oy. exact E.
Qed.

Lemma root_of_forced lw g : root_of (view lw) g = root_of (forced lw) g.
Proof. unfold root_of. rewrite view_game, forced_game. reflexivity. Qed.

Ltac sp := repeat match goal with |- _ /\ _ => split end.
Lemma ask_ok lw q : linv lw -> wf (forced lw) -> lapplicable lw (Ask q) ->
  linv (fst (lask lw q)) /\ grows lw (fst (lask lw q)) /\ forced (fst (lask lw q)) = forced lw /\ snd (lask lw q) = ask (forced lw) q.
Proof.
  intros I W [LN LG]. pose proof (view_forced lw I) as S.
  assert (forall n, query_nodes q = [n] -> exists s, slot_at lw n = Some s /\ (on_properties (Ask q) = true \/ s_node s <> None)) as ON.
  { intros n E. rewrite E in LN. inversion LN; auto. }
  (* touching *)
  assert (forall n s, slot_at lw n = Some s -> s_node s <> None ->
     let lw' := touch lw n in linv lw' /\ grows lw lw' /\ forced lw' = forced lw /\ sim (isbuilt lw') (view lw') (forced lw) /\ live (isbuilt lw') (view lw') n) as T.
  { intros n s Es B lw'. destruct (touch_ok lw n I) as (T1 & T2 & T3 & _ & _ & T6 & _). destruct (T6 _ _ Es) as (s' & Es' & Os' & _).
    split; auto. split; [apply touch_grows; auto|]. split; auto. split; [rewrite <- T2; apply view_forced; auto|].
    eapply built_live; eauto. rewrite Os'. apply T3; auto. }
  assert (forall g x, lgame_at lw g = Some x -> let lw' := touch lw (lg_root x) in
     linv lw' /\ grows lw lw' /\ forced lw' = forced lw /\ sim (isbuilt lw') (view lw') (forced lw) /\ live (isbuilt lw') (view lw') (lg_root x) /\
     root_of (view lw') g = lg_root x /\ root_of (forced lw) g = lg_root x /\ game_at (view lw') g = Some (as_game x) /\ game_at (forced lw) g = Some (as_game x)) as TG.
  { intros g x E lw'. destruct (root_born _ _ _ I W E) as (s & Es & Os & Bs). destruct (T _ _ Es Bs) as (A1 & A2 & A3 & A4 & A5).
    assert (game_at (forced lw) g = Some (as_game x)) as F by (rewrite forced_game, E; reflexivity).
    assert (game_at (view lw') g = Some (as_game x)) as V. { rewrite <- F. exact (f_equal (fun l => nth_error l g) (sim_games _ _ _ A4)). }
    unfold root_of. rewrite F, V. sp; auto. }
  destruct q; cbn [lask looks_at fst snd];
    try (destruct (ON n eq_refl) as (s & Es & Bs));
    try (inversion LG as [|? ? (x & Ex) _]; subst; rewrite Ex; cbn [option_map]; destruct (TG _ _ Ex) as (A1 & A2 & A3 & A4 & A5 & A6 & A7 & A8 & A9));
    try (destruct Bs as [Bs|Bs]; [discriminate|]).
  - destruct (T _ _ Es Bs) as (A1 & A2 & A3 & A4 & A5). sp; auto. cbn [ask]. erewrite q_kids; eauto.
  - destruct (T _ _ Es Bs) as (A1 & A2 & A3 & A4 & A5). sp; auto. cbn [ask]. erewrite q_kids; eauto.
  - cbn [query_nodes] in LN. inversion LN as [|? ? (s & Es & [Bs|Bs]) _]; [discriminate|]; subst.
    destruct (T _ _ Es Bs) as (A1 & A2 & A3 & A4 & A5). sp; auto. cbn [ask]. erewrite q_kids; eauto.
  - split; auto. split; [apply grows_refl|]. split; auto. cbn [ask]. destruct (born_usable _ _ _ I Es Bs) as [L|(x1 & x2 & g & E1 & E2 & P1 & P2 & _)].
    + rewrite (live_eq _ _ _ _ S L). reflexivity.
    + rewrite E1, E2, P1, P2. reflexivity.
  - split; auto. split; [apply grows_refl|]. split; auto. cbn [ask]. rewrite (sim_len _ _ _ S). erewrite q_find; eauto. eapply born_usable; eauto.
  - split; auto. split; [apply grows_refl|]. split; auto. cbn [ask]. erewrite q_has; eauto.
  - split; auto. split; [apply grows_refl|]. split; auto. cbn [ask]. erewrite q_raw; eauto.
  - split; auto. split; [apply grows_refl|]. split; auto. cbn [ask]. erewrite q_get; eauto.
  - split; auto. split; [apply grows_refl|]. split; auto. cbn [ask]. erewrite q_move; eauto.
  - split; auto. split; [apply grows_refl|]. split; auto. cbn [ask]. erewrite q_setup; eauto.
  - split; auto. split; [apply grows_refl|]. split; auto. cbn [ask]. erewrite q_above; eauto. eapply born_usable; eauto.
  - sp; auto. cbn [ask]. rewrite A6, A7. unfold main_from. rewrite (sim_len _ _ _ A4). erewrite q_main; eauto.
  - destruct (T _ _ Es Bs) as (A1 & A2 & A3 & A4 & A5). sp; auto. cbn [ask]. unfold main_from. rewrite (sim_len _ _ _ A4). erewrite q_main; eauto.
  - sp; auto. cbn [ask]. rewrite A6, A7. unfold main_from. rewrite (sim_len _ _ _ A4). erewrite q_main; eauto.
  - sp; auto. cbn [ask]. rewrite A8, A9. unfold serialise_game. rewrite (sim_len _ _ _ A4). erewrite q_data; eauto.
  - destruct (lg_coarse x) as [t|] eqn:C; cbn [fst snd]; split; auto; (split; [apply grows_refl|]); split; auto; cbn [ask].
    + rewrite A7. rewrite (coarse_forced _ _ _ _ I Ex C). reflexivity.
    + rewrite root_of_forced, A7. unfold main_from. rewrite (sim_len _ _ _ S). erewrite q_main; eauto.
      destruct (root_born _ _ _ I W Ex) as (s & Es & Os & Bs). eapply built_live; eauto. rewrite Os. exists x. auto.
Qed.
