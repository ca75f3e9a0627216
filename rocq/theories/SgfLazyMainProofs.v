(** Laziness is not observable (C68). *)
From Verif Require Import Base Bytes PyStr Dict SgfGrammarModel SgfGrammarSpec SgfGrammarProofs SgfParserProofs SgfErrorProofs SgfTreeConvModel SgfTreeConvProofs
  CommonModel SgfPropsModel SgfTreeModel SgfTreeSpec SgfTreeProofs SgfNodeProofs SgfGameProofs SgfTreeMainProofs SgfNavProofs SgfSaveProofs
  SgfLazyModel SgfLazySpec SgfLazyBuildProofs SgfLazyLoadProofs SgfLazyProofs SgfLazyOpsProofs.

Lemma put_nodes_nth ns : forall l n, nth_error (put_nodes l ns) n =
  match nth_error ns n with
  | None => None
  | Some x => Some (mkSlot (t_owner x) (t_props x)
      (match nth_error l n with None => Some (t_parent x, t_kids x) | Some s => option_map (fun _ => (t_parent x, t_kids x)) (s_node s) end))
  end.
Proof.
  induction ns as [|x ns IH]; intros [|s l] [|n]; cbn; auto. rewrite IH. destruct n; reflexivity.
Qed.
Lemma put_games_nth gs : forall l n, nth_error (put_games l gs) n =
  match nth_error gs n with
  | None => None
  | Some x => Some (mkLG (g_root x) (g_pres x) (match nth_error l n with None => None | Some y => lg_coarse y end))
  end.
Proof.
  induction gs as [|x gs IH]; intros [|s l] [|n]; cbn; auto. rewrite IH. destruct n; reflexivity.
Qed.

Definition isbuilt (lw : lworld) (g : nat) : bool :=
  match lgame_at lw g with Some x => match lg_coarse x with None => true | Some _ => false end | None => false end.

Lemma view_forced lw : linv lw -> sim (isbuilt lw) (view lw) (forced lw).
Proof.
  intros I. constructor; [reflexivity|rewrite view_length, forced_length; reflexivity|].
  intros n x1 x2 E1 E2. rewrite view_at in E1. rewrite forced_at in E2. destruct (slot_at lw n) as [s|] eqn:E; [|discriminate].
  injection E1 as <-. injection E2 as <-. unfold view_node, forced_node. cbn. split; auto. split; auto.
  unfold isbuilt. intros H. destruct (lgame_at lw (s_owner s)) as [x|] eqn:Ex; [|discriminate]. destruct (lg_coarse x) eqn:Ec; [discriminate|].
  unfold final_links. rewrite Ex, Ec. reflexivity.
Qed.

(** The root of a game that isn't built. *)
Lemma lazy_root lw g x t : linv lw -> lgame_at lw g = Some x -> lg_coarse x = Some t ->
  exists sq ch s ks, t = LC (lg_root x :: sq) ch /\ slot_at lw (lg_root x) = Some s /\ s_owner s = g /\ s_node s = Some (None, []) /\
    final_links lw (lg_root x) s = (None, ks).
Proof.
  intros I Ex Ec. destruct (li_lazy _ I _ _ _ Ex Ec) as (LS & ND & (sq & ES) & OW & BO). destruct t as [sq0 ch]. cbn in ES. subst sq0.
  assert (In (lg_root x) (llabels (LC (lg_root x :: sq) ch))) as IR by (left; auto).
  destruct (proj1 (OW _) IR) as (s & Es & Os). exists sq, ch, s.
  pose proof (BO _ _ Es Os) as BS. rewrite Nat.eqb_refl in BS.
  exists (match sq with [] => heads ch | n' :: _ => [n'] end). repeat split; auto.
  unfold final_links. rewrite Os, Ex, Ec. destruct sq as [|n' sq]; [rewrite links_one|rewrite links_cons2]; cbn [assoc]; rewrite Nat.eqb_refl; reflexivity.
Qed.

Lemma born_usable lw n s : linv lw -> slot_at lw n = Some s -> s_node s <> None -> usable (isbuilt lw) (view lw) (forced lw) n.
Proof.
  intros I E B. destruct (li_owner _ I _ _ E) as (x & Ex). destruct (lg_coarse x) as [t|] eqn:Ec.
  - right. destruct (lazy_root _ _ _ _ I Ex Ec) as (sq & ch & s' & ks & Et & Es & Os & Ns & FL).
    destruct (li_lazy _ I _ _ _ Ex Ec) as (_ & _ & _ & _ & BO). pose proof (BO _ _ E eq_refl) as BS.
    destruct (Nat.eqb_spec n (lg_root x)) as [->|N]; [|congruence]. rewrite E in Es. injection Es as <-.
    exists (view_node s), (forced_node lw (lg_root x) s), (as_game x). rewrite view_at, forced_at, E. split; auto. split; auto.
    assert (t_owner (view_node s) = s_owner s) as OV by reflexivity.
    assert (game_at (view lw) (s_owner s) = Some (as_game x)) as GV by (rewrite view_game, Ex; reflexivity).
    assert (t_parent (view_node s) = None) as PV by (unfold view_node; cbn [t_parent]; rewrite Ns; reflexivity).
    assert (t_parent (forced_node lw (lg_root x) s) = None) as PF by (unfold forced_node; cbn [t_parent]; rewrite FL; reflexivity).
    rewrite OV. repeat split; auto. unfold isbuilt; rewrite Ex, Ec; auto.
  - left. exists (view_node s). rewrite view_at, E. split; auto. cbn. unfold isbuilt. rewrite Ex, Ec. reflexivity.
Qed.

Lemma built_live lw n s : linv lw -> slot_at lw n = Some s -> built lw (s_owner s) -> live (isbuilt lw) (view lw) n.
Proof.
  intros I E (x & Ex & Ec). exists (view_node s). rewrite view_at, E. split; auto. cbn. unfold isbuilt. rewrite Ex, Ec. reflexivity.
Qed.

(** ** Operations *)

Lemma put_ok lw w1' w2' : linv lw -> step_ok (isbuilt lw) (view lw) w1' (forced lw) w2' ->
  linv (put lw w1') /\ forced (put lw w1') = w2' /\
  (forall g x, lgame_at lw g = Some x -> exists x', lgame_at (put lw w1') g = Some x' /\ lg_coarse x' = lg_coarse x /\ lg_root x' = lg_root x) /\
  (forall g x, lgame_at lw g = None -> lgame_at (put lw w1') g = Some x -> lg_coarse x = None) /\
  (forall n s, slot_at lw n = Some s -> exists s', slot_at (put lw w1') n = Some s' /\ s_owner s' = s_owner s /\ (s_node s = None <-> s_node s' = None)).
Proof.
  intros I SO.
  assert (forall n, slot_at (put lw w1') n = match node_at w1' n with None => None | Some x => Some (mkSlot (t_owner x) (t_props x)
      (match slot_at lw n with None => Some (t_parent x, t_kids x) | Some s => option_map (fun _ => (t_parent x, t_kids x)) (s_node s) end)) end) as SA.
  { intros n. unfold slot_at, put. cbn [lw_slots]. apply put_nodes_nth. }
  assert (forall g, lgame_at (put lw w1') g = match game_at w1' g with None => None | Some x => Some (mkLG (g_root x) (g_pres x)
      (match lgame_at lw g with None => None | Some y => lg_coarse y end)) end) as GA.
  { intros g. unfold lgame_at, put. cbn [lw_games]. apply put_games_nth. }
  assert (forall n s, slot_at lw n = Some s -> exists x1' x2', node_at w1' n = Some x1' /\ node_at w2' n = Some x2' /\
     t_owner x1' = s_owner s /\ t_owner x2' = s_owner s /\ t_props x1' = t_props x2' /\
     (isbuilt lw (s_owner s) = true -> x1' = x2') /\
     (isbuilt lw (s_owner s) = false -> (t_parent x1', t_kids x1') = match s_node s with Some y => y | None => (None, []) end /\
        (t_parent x2', t_kids x2') = final_links lw n s) /\
     slot_at (put lw w1') n = Some (mkSlot (t_owner x1') (t_props x1') (option_map (fun _ => (t_parent x1', t_kids x1')) (s_node s)))) as OLD.
  { intros n s E. assert (node_at (view lw) n = Some (view_node s)) as E1 by (rewrite view_at, E; reflexivity).
    assert (node_at (forced lw) n = Some (forced_node lw n s)) as E2 by (rewrite forced_at, E; reflexivity).
    destruct (so_old _ _ _ _ _ SO _ _ _ E1 E2) as (x1' & x2' & A1 & A2 & A3 & A4 & A5 & A6 & A7). exists x1', x2'. repeat split; auto.
    - destruct (A7 H) as [B1 _]. rewrite B1. unfold view_node. cbn. destruct (s_node s) as [[? ?]|]; reflexivity.
    - destruct (A7 H) as [_ B2]. rewrite B2. unfold forced_node. cbn. destruct (final_links lw n s); reflexivity.
    - rewrite SA, A1, E. reflexivity. }
  assert (forall n s', slot_at (put lw w1') n = Some s' -> slot_at lw n = None -> exists x, node_at w1' n = Some x /\ node_at w2' n = Some x /\
     s' = mkSlot (t_owner x) (t_props x) (Some (t_parent x, t_kids x)) /\ (exists y, game_at w1' (t_owner x) = Some y) /\
     (isbuilt lw (t_owner x) = true \/ lgame_at lw (t_owner x) = None)) as NEW.
  { intros n s' E N. rewrite SA, N in E. destruct (node_at w1' n) as [x|] eqn:Ex; [|discriminate]. injection E as <-.
    destruct (so_new _ _ _ _ _ SO n x) as (A1 & A2 & A3); auto; [rewrite view_at, N; reflexivity|].
    exists x. repeat split; auto. destruct A3 as [A3|A3]; auto. right. rewrite view_game in A3. destruct (lgame_at lw (t_owner x)); [discriminate|reflexivity]. }
  assert (forall g x, lgame_at lw g = Some x -> exists x', lgame_at (put lw w1') g = Some x' /\ lg_coarse x' = lg_coarse x /\ lg_root x' = lg_root x) as KEEP.
  { intros g x E. destruct (so_keep _ _ _ _ _ SO g (as_game x)) as (y' & Ey & R); [rewrite view_game, E; reflexivity|].
    rewrite GA, Ey, E. eexists. split; [reflexivity|]. cbn. auto. }
  assert (forall g x, lgame_at lw g = None -> lgame_at (put lw w1') g = Some x -> lg_coarse x = None) as KNEW.
  { intros g x N E. rewrite GA, N in E. destruct (game_at w1' g); [|discriminate]. injection E as <-. reflexivity. }
  assert (forall g x t, lgame_at (put lw w1') g = Some x -> lg_coarse x = Some t ->
     exists x0, lgame_at lw g = Some x0 /\ lg_coarse x0 = Some t /\ lg_root x = lg_root x0) as LAZY.
  { intros g x t E C. destruct (lgame_at lw g) as [x0|] eqn:E0; [|rewrite (KNEW _ _ E0 E) in C; discriminate].
    destruct (KEEP _ _ E0) as (x' & E' & C' & R'). rewrite E in E'. injection E' as <-. exists x0. split; auto. split; congruence. }
  split; [|split; [|split; [|split]]]; auto.
  - constructor.
    + intros n s' E. destruct (slot_at lw n) as [s|] eqn:Es.
      * destruct (OLD _ _ Es) as (x1' & x2' & _ & _ & O & _ & _ & _ & _ & SP). rewrite E in SP. injection SP as ->. cbn [s_owner]. rewrite O.
        destruct (li_owner _ I _ _ Es) as (x & Ex). destruct (KEEP _ _ Ex) as (x' & Ex' & _). eauto.
      * destruct (NEW _ _ E Es) as (x & _ & _ & -> & (y & Ey) & _). cbn [s_owner]. rewrite GA, Ey. eauto.
    + intros g x t E C. destruct (LAZY _ _ _ E C) as (x0 & E0 & C0 & R0). destruct (li_lazy _ I _ _ _ E0 C0) as (A1 & A2 & A3 & A4 & A5). rewrite R0.
      assert (isbuilt lw g = false) as NB by (unfold isbuilt; rewrite E0, C0; reflexivity).
      split; auto. split; auto. split; auto. split.
      * intros n. rewrite A4. split; intros (s & Es & Os).
        -- destruct (OLD _ _ Es) as (x1' & x2' & _ & _ & O & _ & _ & _ & _ & SP). eexists. split; [exact SP|]. cbn. congruence.
        -- destruct (slot_at lw n) as [s0|] eqn:Es0.
           ++ destruct (OLD _ _ Es0) as (x1' & x2' & _ & _ & O & _ & _ & _ & _ & SP). rewrite Es in SP. injection SP as ->. cbn in Os. exists s0. split; auto. congruence.
           ++ destruct (NEW _ _ Es Es0) as (y & _ & _ & -> & _ & [H|H]); cbn in Os; rewrite Os in H; congruence.
      * intros n s Es Os. destruct (slot_at lw n) as [s0|] eqn:Es0.
        -- destruct (OLD _ _ Es0) as (x1' & x2' & _ & _ & O & _ & _ & _ & NBc & SP). rewrite Es in SP. injection SP as ->. cbn [s_owner s_node] in *.
           assert (s_owner s0 = g) as Og by congruence. rewrite Og in NBc. destruct (NBc NB) as [B1 _]. rewrite <- (A5 _ _ Es0 Og).
           destruct (s_node s0); [|reflexivity]. cbn [option_map]. rewrite B1. reflexivity.
        -- destruct (NEW _ _ Es Es0) as (y & _ & _ & -> & _ & [H|H]); cbn in Os; rewrite Os in H; congruence.
    + intros n s x Es Ex Ec. destruct (slot_at lw n) as [s0|] eqn:Es0.
      * destruct (OLD _ _ Es0) as (x1' & x2' & _ & _ & O & _ & _ & _ & _ & SP). rewrite Es in SP. injection SP as ->. cbn [s_owner s_node] in *. rewrite O in Ex.
        destruct (li_owner _ I _ _ Es0) as (x0 & Ex0). destruct (KEEP _ _ Ex0) as (x' & Ex' & C' & _). rewrite Ex in Ex'. injection Ex' as <-.
        pose proof (li_eager _ I _ _ _ Es0 Ex0 ltac:(congruence)). destruct (s_node s0); [discriminate|congruence].
      * destruct (NEW _ _ Es Es0) as (y & _ & _ & -> & _). discriminate.
  - apply world_ext.
    + intros n. rewrite forced_at. destruct (slot_at lw n) as [s|] eqn:Es.
      * destruct (OLD _ _ Es) as (x1' & x2' & A1 & A2 & O1 & O2 & P & B & NB & SP). rewrite SP, A2. cbn [option_map]. f_equal. unfold forced_node. cbn [s_owner s_props].
        rewrite P. destruct (li_owner _ I _ _ Es) as (x & Ex). destruct (KEEP _ _ Ex) as (x' & Ex' & Cx' & _).
        assert (final_links (put lw w1') n (mkSlot (t_owner x1') (t_props x2') (option_map (fun _ => (t_parent x1', t_kids x1')) (s_node s))) = (t_parent x2', t_kids x2')) as FL.
        { unfold final_links. cbn [s_owner s_node]. rewrite O1, Ex', Cx'. unfold isbuilt in B, NB. rewrite Ex in B, NB. unfold final_links in NB. rewrite Ex in NB.
          destruct (lg_coarse x) as [t|] eqn:Ec.
          - destruct (NB eq_refl) as [N1 N2]. rewrite N2. destruct (assoc n (links None t)) eqn:Ea; auto. destruct (s_node s); [exact N1|reflexivity].
          - pose proof (li_eager _ I _ _ _ Es Ex Ec). destruct (s_node s); [|congruence]. cbn [option_map]. rewrite (B eq_refl). reflexivity. }
        rewrite FL, O1, <- O2. destruct x2'; reflexivity.
      * destruct (slot_at (put lw w1') n) as [s'|] eqn:Es'.
        -- destruct (NEW _ _ Es' Es) as (x & A1 & A2 & -> & (y & Ey) & H). rewrite A2. cbn [option_map]. f_equal. unfold forced_node, final_links. cbn [s_owner s_props s_node].
           rewrite GA, Ey. assert (match lgame_at lw (t_owner x) with Some y0 => lg_coarse y0 | None => None end = None) as C0.
           { destruct H as [H|H]; [|rewrite H; reflexivity]. unfold isbuilt in H. destruct (lgame_at lw (t_owner x)) as [z|]; auto. destruct (lg_coarse z); [discriminate|reflexivity]. }
           rewrite C0. cbn. destruct x; reflexivity.
        -- cbn. symmetry. rewrite SA in Es'. destruct (node_at w1' n) eqn:E1; [discriminate|]. unfold node_at in *. apply nth_error_None. rewrite <- (so_len _ _ _ _ _ SO).
           apply nth_error_None. exact E1.
    + rewrite <- (so_games _ _ _ _ _ SO). apply nth_ext'. intros g. change (game_at (forced (put lw w1')) g = game_at w1' g). rewrite forced_game, GA.
      destruct (game_at w1' g) as [[r p]|]; reflexivity.
  - intros n s Es. destruct (OLD _ _ Es) as (x1' & x2' & _ & _ & O & _ & _ & _ & _ & SP). eexists. split; [exact SP|]. cbn. split; auto. destruct (s_node s); cbn; split; congruence.
Qed.

(** Properties of a step: the abstraction, and what stays. *)
Definition grows (lw lw' : lworld) : Prop :=
  (forall g x, lgame_at lw g = Some x -> exists x', lgame_at lw' g = Some x' /\ lg_root x' = lg_root x /\ (lg_coarse x' = lg_coarse x \/ lg_coarse x' = None)) /\
  (forall n s, slot_at lw n = Some s -> exists s', slot_at lw' n = Some s' /\ s_owner s' = s_owner s /\ (s_node s <> None -> s_node s' <> None)).

Lemma grows_refl lw : grows lw lw.
Proof. split; eauto. Qed.
Lemma grows_trans a b c : grows a b -> grows b c -> grows a c.
Proof.
  intros [A1 A2] [B1 B2]. split.
  - intros g x E. destruct (A1 _ _ E) as (y & Ey & Ry & Cy). destruct (B1 _ _ Ey) as (z & Ez & Rz & Cz). exists z. split; auto. split; [congruence|].
    destruct Cy as [Cy|Cy], Cz as [Cz|Cz]; rewrite ?Cz, ?Cy; auto.
  - intros n s E. destruct (A2 _ _ E) as (s' & E' & O' & N'). destruct (B2 _ _ E') as (s'' & E'' & O'' & N''). exists s''. split; auto. split; [congruence|auto].
Qed.
Lemma touch_grows lw n : linv lw -> grows lw (touch lw n).
Proof.
  intros I. destruct (touch_ok lw n I) as (_ & _ & _ & A4 & A5 & A6 & _). split; auto.
  intros g x E. pose proof (A4 g) as H. rewrite E in H. destruct (lgame_at (touch lw n) g) as [x'|] eqn:E'; [|discriminate]. exists x'. split; auto.
  cbn in H. injection H as H1 H2. split; [congruence|]. destruct (A5 g) as [H|(y & Ey & Cy)]; [left; congruence|right; congruence].
Qed.

Definition good_step (lw : lworld) (o : op) (R : loutcome) : Prop :=
  linv (fst R) /\ grows lw (fst R) /\ exec (forced lw) o = (forced (fst R), snd R).

Lemma put_good lw o : linv lw -> (exists w1' w2' r, exec (view lw) o = (w1', r) /\ exec (forced lw) o = (w2', r) /\
    step_ok (isbuilt lw) (view lw) w1' (forced lw) w2') -> good_step lw o (inherited lw o).
Proof.
  intros I (w1' & w2' & r & E1 & E2 & SO). unfold good_step, inherited. rewrite E1. cbn [fst snd].
  destruct (put_ok lw w1' w2' I SO) as (A1 & A2 & A3 & A4 & A5). split; auto. split; [|rewrite A2; exact E2]. split.
  - intros g x E. destruct (A3 _ _ E) as (x' & E' & C' & R'). exists x'. auto.
  - intros n s E. destruct (A5 _ _ E) as (s' & E' & O' & N'). exists s'. split; auto. split; auto. intros H H'. apply H. apply N'. auto.
Qed.

Lemma slot_pres lw n s : linv lw -> slot_at lw n = Some s -> forall x, node_at (view lw) n = Some x -> exists pr, pres_of (view lw) x = Some pr.
Proof.
  intros I E x Ex. rewrite view_at, E in Ex. injection Ex as <-. destruct (li_owner _ I _ _ E) as (g & Eg).
  unfold pres_of. cbn [view_node t_owner]. rewrite view_game, Eg. eexists. reflexivity.
Qed.

Lemma lapp_one lw a n : (forall o, a = Do o -> op_nodes o = [n]) -> (exists o, a = Do o) -> lapplicable lw a ->
  exists s, slot_at lw n = Some s /\ (on_properties a = true \/ s_node s <> None).
Proof. intros H (o & ->) [F _]. rewrite (H _ eq_refl) in F. inversion F; auto. Qed.

Lemma exec_ok lw o : linv lw -> wf (forced lw) -> lapplicable lw (Do o) -> good_step lw o (lexec lw o).
Proof.
  intros I W [LN LG]. pose proof (view_forced lw I) as S.
  assert (forall n, on_properties (Do o) = true -> op_nodes o = [n] -> good_step lw o (inherited lw o)) as PR.
  { intros n OP ON. rewrite ON in LN. inversion LN as [|? ? (s & Es & _) _]; subst. apply put_good; auto. eapply exec_props; eauto.
    - rewrite view_at, Es. eexists. reflexivity.
    - eapply slot_pres; eauto. }
  assert (forall g f, exec (view lw) o = set_presenter (view lw) g f -> exec (forced lw) o = set_presenter (forced lw) g f -> op_games o = [g] ->
    good_step lw o (inherited lw o)) as PS.
  { intros g f E1 E2 OG. rewrite OG in LG. inversion LG as [|? ? (x & Ex) _]; subst. apply put_good; auto. rewrite E1, E2. apply exec_presenter; auto.
    rewrite view_game, Ex. eexists. reflexivity. }
  destruct o; cbn [lexec]; try (eapply PR; reflexivity); try (eapply PS; reflexivity).
  - apply put_good; auto. apply exec_new_game; auto.
  - destruct (C11_game_proof s) as [(t & E & PT)|E]; rewrite E.
    2: { split; auto. split; [apply grows_refl|]. cbn [exec fst snd]. unfold load_string. rewrite E. reflexivity. }
    pose proof (parsed_seqs_ok _ PT) as SQ. destruct t as [sq ch]. inversion SQ as [? ? Nn _]; subst. destruct sq as [|m sq]; [congruence|].
    set (t := CT (m :: sq) ch) in *. unfold good_step. cbn [exec]. unfold load_string, lazy_load, load_game. rewrite E. cbn [c_sequence t].
    destruct (match dget (str "SZ") m with None => Ok 19 | Some [] => Err IndexError | Some (v :: _) => py_int v end) as [size|ex];
      [|split; auto; split; [apply grows_refl|reflexivity]].
    destruct (negb _); [split; auto; split; [apply grows_refl|reflexivity]|]. fold t.
    destruct (ntree_of_root t m sq ch eq_refl) as (ks & EN). rewrite EN.
    destruct (load_ok lw t m sq ch size e I eq_refl SQ) as (I1 & F1). specialize (F1 ks EN). cbv zeta in F1, I1.
    set (lw1 := mkLW _ _) in *.
    assert (grows lw lw1) as GR.
    { split.
      - intros g x Ex. exists x. split; [|auto]. unfold lgame_at, lw1 in *. cbn [lw_games]. rewrite nth_error_app1; auto. apply nth_error_Some. congruence.
      - intros n y Ey. exists y. split; [|auto]. unfold slot_at, lw1 in *. cbn [lw_slots]. rewrite nth_error_app1; auto. apply nth_error_Some. congruence. }
    destruct override.
    + assert (good_step lw1 (SetRaw (List.length (lw_slots lw)) (str "CA") (encoding_name e)) (inherited lw1 (SetRaw (List.length (lw_slots lw)) (str "CA") (encoding_name e)))) as (A1 & A2 & A3).
      { assert (exists s0, slot_at lw1 (List.length (lw_slots lw)) = Some s0) as (s0 & Es0).
        { unfold slot_at, lw1. cbn [lw_slots]. rewrite nth_error_app2 by lia. rewrite Nat.sub_diag. eexists. reflexivity. }
        apply put_good; auto. eapply exec_props; [apply view_forced; auto|reflexivity|reflexivity| |].
        - rewrite view_at, Es0. eexists. reflexivity.
        - eapply slot_pres; eauto. }
      split; auto. split; [eapply grows_trans; eauto|]. rewrite <- F1. rewrite forced_length. cbn [exec] in A3. exact A3.
    + cbn [fst snd]. split; auto. split; auto. rewrite <- F1. reflexivity.
  - destruct (touch_ok lw n I) as (T1 & T2 & T3 & _ & _ & T6 & _). inversion LN as [|? ? (s & Es & [H|H]) _]; [discriminate|]; subst.
    destruct (T6 _ _ Es) as (s' & Es' & Os' & _).
    assert (good_step (touch lw n) (NewChild n index) (inherited (touch lw n) (NewChild n index))) as (A1 & A2 & A3).
    { apply put_good; auto. apply exec_new_child; [apply view_forced; auto|rewrite T2; auto|]. eapply built_live; eauto. rewrite Os'. apply T3; auto. }
    split; auto. split; [eapply grows_trans; [apply touch_grows|]; eauto|]. rewrite <- T2. exact A3.
  - inversion LN as [|? ? (s & Es & [H|H]) _]; [discriminate|]; subst. apply put_good; auto. apply exec_delete; auto. eapply born_usable; eauto.
  - inversion LN as [|? ? (s & Es & [H|H]) LN2]; [discriminate|]; subst. inversion LN2 as [|? ? (s2 & Es2 & [H2|H2]) _]; [discriminate|]; subst.
    apply put_good; auto. apply exec_reparent; auto; eapply born_usable; eauto.
Qed.
