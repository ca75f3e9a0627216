(** Histories of lazily built games (C68). *)
From Verif Require Import Base Bytes PyStr Dict SgfGrammarModel SgfGrammarSpec SgfTreeConvModel
  CommonModel SgfPropsModel SgfTreeModel SgfTreeSpec SgfTreeProofs SgfNodeProofs SgfGameProofs SgfTreeMainProofs
  SgfLazyModel SgfLazySpec SgfLazyBuildProofs SgfLazyLoadProofs SgfLazyProofs SgfLazyOpsProofs SgfLazyMainProofs SgfLazyQueryProofs.

Lemma linv_empty : linv empty_lworld.
Proof.
  constructor.
  - intros [|n] s E; discriminate.
  - intros [|n] x t E; discriminate.
  - intros [|n] s x E; discriminate.
Qed.

Lemma lapplicable_forced lw o : lapplicable lw (Do o) -> applicable (forced lw) o.
Proof.
  intros [A B]. split.
  - eapply Forall_impl; [|exact A]. intros n (s & E & _). rewrite forced_length. apply nth_error_Some. unfold slot_at in E. congruence.
  - eapply Forall_impl; [|exact B]. intros n (x & E). unfold forced. cbn [w_games]. rewrite map_length. apply nth_error_Some. unfold lgame_at in E. congruence.
Qed.

Definition linv2 (lw : lworld) : Prop := linv lw /\ reachable_world (forced lw).

Lemma step_ok2 lw a : linv2 lw -> lapplicable lw a ->
  linv2 (fst (lstep lw a)) /\ grows lw (fst (lstep lw a)) /\ estep (forced lw) a = (forced (fst (lstep lw a)), snd (lstep lw a)).
Proof.
  intros [I R] A. pose proof (inv_wf _ (reachable_inv _ R)) as W. destruct a as [o|q].
  - destruct (exec_ok lw o I W A) as (A1 & A2 & A3). unfold lstep, estep. destruct (lexec lw o) as [lw' r]. cbn [fst snd] in *. rewrite A3.
    split; [|split; auto]. split; auto. replace (forced lw') with (fst (exec (forced lw) o)) by (rewrite A3; reflexivity). constructor; auto. apply lapplicable_forced; auto.
  - destruct (ask_ok lw q I W A) as (A1 & A2 & A3 & A4). unfold lstep, estep. destruct (lask lw q) as [lw' r]. cbn [fst snd] in *.
    split; [split; auto; rewrite A3; auto|]. split; auto. rewrite A3, A4. reflexivity.
Qed.

Lemma run_ok l : forall lw, linv2 lw -> lapplicable_all lw l ->
  linv2 (fst (lrun lw l)) /\ grows lw (fst (lrun lw l)) /\ erun (forced lw) l = (forced (fst (lrun lw l)), snd (lrun lw l)).
Proof.
  induction l as [|a l IH]; intros lw I A; cbn [lrun erun lapplicable_all] in *; [split; auto; split; auto; apply grows_refl|].
  destruct A as [A1 A2]. destruct (step_ok2 _ _ I A1) as (B1 & B2 & B3). rewrite B3. destruct (lstep lw a) as [lw1 r]. cbn [fst snd] in *.
  destruct (IH _ B1 A2) as (C1 & C2 & C3). rewrite C3. destruct (lrun lw1 l) as [lw2 rs]. cbn [fst snd] in *. split; auto. split; auto. eapply grows_trans; eauto.
Qed.

Lemma lreachable_inv lw : lreachable lw -> linv2 lw.
Proof. intros (l & A & ->). apply (run_ok l); auto. split; [apply linv_empty|constructor]. Qed.

Lemma C68_run_proof l : lapplicable_all empty_lworld l ->
  snd (lrun empty_lworld l) = snd (erun empty_world l) /\ forced (fst (lrun empty_lworld l)) = fst (erun empty_world l) /\
  reachable_world (fst (erun empty_world l)).
Proof.
  intros A. destruct (run_ok l empty_lworld) as ((_ & R) & _ & E); auto; [split; [apply linv_empty|constructor]|].
  change (forced empty_lworld) with empty_world in E. rewrite E. cbn [fst snd]. auto.
Qed.

(** ** When a game is built *)
Lemma inherited_coarse lw o g x x' : lgame_at lw g = Some x -> lgame_at (fst (inherited lw o)) g = Some x' -> lg_coarse x' = lg_coarse x.
Proof.
  intros E E'. unfold inherited in E'. destruct (exec (view lw) o) as [w' r]. cbn [fst] in E'. unfold lgame_at, put in *. cbn [lw_games] in E'.
  rewrite put_games_nth, E in E'. destruct (nth_error (w_games w') g); [|discriminate]. injection E' as <-. reflexivity.
Qed.

Lemma touch_coarse lw n g x : linv lw -> lgame_at lw g = Some x -> lg_root x <> n -> wf (forced lw) ->
  lgame_at (touch lw n) g = Some x.
Proof.
  intros I E N W. unfold touch. destruct (slot_at lw n) as [s|] eqn:Es; auto. destruct (lgame_at lw (s_owner s)) as [y|] eqn:Ey; auto.
  destruct (Nat.eqb_spec (lg_root y) n) as [<-|]; auto. destruct (expand_ok lw (s_owner s) I) as (_ & _ & _ & _ & A5 & _).
  rewrite A5; auto. intros ->. congruence.
Qed.
Lemma touch_builds lw g x : linv lw -> wf (forced lw) -> lgame_at lw g = Some x -> built (touch lw (lg_root x)) g.
Proof.
  intros I W E. destruct (root_born _ _ _ I W E) as (s & Es & Os & Bs). destruct (touch_ok lw (lg_root x) I) as (_ & _ & T3 & _). rewrite <- Os. apply T3; auto.
Qed.

Lemma C68_built_proof lw a g x : lreachable lw -> lapplicable lw a -> lgame_at lw g = Some x -> unbuilt lw g ->
  (unbuilt (fst (lstep lw a)) g <-> ~ opens g (lg_root x) a).
Proof.
  intros R A E (x0 & t & E0 & C). assert (x0 = x) as -> by congruence. clear E0. pose proof (lreachable_inv _ R) as [I RW]. pose proof (inv_wf _ (reachable_inv _ RW)) as W.
  destruct (step_ok2 lw a (conj I RW) A) as (_ & (GG & _) & _). destruct (GG _ _ E) as (x' & Ex' & _ & _).
  assert (forall n, lg_root x <> n -> lgame_at (touch lw n) g = Some x) as TC by (intros; apply touch_coarse; auto).
  assert (lg_coarse x' = Some t -> (unbuilt (fst (lstep lw a)) g <-> True)) as YES by (intros H; split; auto; intros _; exists x', t; auto).
  assert (lg_coarse x' = None -> (unbuilt (fst (lstep lw a)) g <-> False)) as NO. { intros H. split; [|tauto]. intros (y & u & Ey & Cy). congruence. }
  assert (forall n m, n = lg_root x -> lgame_at (touch lw n) g = Some m -> lg_coarse m = None) as TB.
  { intros n m Hn Em. rewrite Hn in Em. destruct (touch_builds _ _ _ I W E) as (y & Ey & Cy). congruence. }
  assert (forall h y, lgame_at lw h = Some y -> lg_root y = lg_root x -> h = g) as INJ.
  { intros h y Eh Er. destruct (root_born _ _ _ I W E) as (s & Es & Os & _). destruct (root_born _ _ _ I W Eh) as (s' & Es' & Os' & _). congruence. }
  assert ((exists n, lg_root x <> n /\ lgame_at (fst (lstep lw a)) g = lgame_at (touch lw n) g) -> lg_coarse x' = Some t) as KEEP.
  { intros (n & N & EQ). rewrite EQ, (TC _ N) in Ex'. injection Ex' as <-. auto. }
  destruct a as [o|q].
  - assert (fst (lstep lw (Do o)) = fst (lexec lw o)) as FE by (unfold lstep; destruct (lexec lw o); reflexivity).
    rewrite FE in *. destruct o; cbn [lexec opens] in *; try (assert (lg_coarse x' = Some t) as H by (rewrite (inherited_coarse _ _ _ _ _ E Ex'); exact C); rewrite YES; tauto).
    + assert (lg_coarse x' = Some t) as H; [|rewrite YES; tauto].
      destruct (parse_sgf_game s) as [pt|]; [|cbn [fst] in Ex'; congruence]. unfold lazy_load in Ex'.
      destruct (c_sequence pt) as [|m sq]; [cbn [fst] in Ex'; congruence|]. destruct (match dget (str "SZ") m with None => _ | Some _ => _ end); [|cbn [fst] in Ex'; congruence].
      destruct (negb _); [cbn [fst] in Ex'; congruence|]. set (lw1 := mkLW _ _) in Ex'.
      assert (lgame_at lw1 g = Some x) as E1. { unfold lgame_at, lw1 in *. cbn [lw_games]. rewrite nth_error_app1; auto. apply nth_error_Some. congruence. }
      destruct override; [rewrite (inherited_coarse _ _ _ _ _ E1 Ex'); exact C|cbn [fst] in Ex'; congruence].
    + destruct (Nat.eq_dec n (lg_root x)) as [->|N].
      * destruct (touch_builds _ _ _ I W E) as (y & Ey & Cy). rewrite NO by (rewrite (inherited_coarse _ _ _ _ _ Ey Ex'); exact Cy). tauto.
      * rewrite YES by (rewrite (inherited_coarse _ _ _ _ _ (TC n (not_eq_sym N)) Ex'); exact C). tauto.
  - assert (fst (lstep lw (Ask q)) = fst (lask lw q)) as FE by (unfold lstep; destruct (lask lw q); reflexivity).
    rewrite FE in *. destruct A as [_ LG].
    destruct q; cbn [lask looks_at opens fst] in *; try (assert (lg_coarse x' = Some t) as H by congruence; rewrite YES; tauto);
      try (match goal with |- context [?n = lg_root x] => destruct (Nat.eq_dec n (lg_root x)) as [->|N];
             [rewrite NO by (eapply TB; eauto); tauto|rewrite YES by (rewrite TC in Ex' by auto; congruence); tauto] end);
      try (inversion LG as [|? ? (y & Ey) _]; subst; rewrite Ey in *; cbn [option_map] in *).
    + destruct (Nat.eq_dec g0 g) as [->|N].
      * assert (y = x) as -> by congruence. rewrite NO by (eapply TB; eauto). tauto.
      * rewrite YES; [tauto|]. rewrite TC in Ex' by (intros H; apply N; eapply INJ; eauto). congruence.
    + destruct (Nat.eq_dec g0 g) as [->|N].
      * assert (y = x) as -> by congruence. rewrite NO by (eapply TB; eauto). tauto.
      * rewrite YES; [tauto|]. rewrite TC in Ex' by (intros H; apply N; eapply INJ; eauto). congruence.
    + destruct (Nat.eq_dec g0 g) as [->|N].
      * assert (y = x) as -> by congruence. rewrite NO by (eapply TB; eauto). tauto.
      * rewrite YES; [tauto|]. rewrite TC in Ex' by (intros H; apply N; eapply INJ; eauto). congruence.
    + rewrite YES; [tauto|]. destruct (lg_coarse y); cbn [fst] in Ex'; congruence.
Qed.

(** ** The iterator *)
Lemma C68_iter_proof l1 l2 g : lapplicable_all empty_lworld l1 -> lapplicable_all (fst (lrun empty_lworld l1)) l2 ->
  let lw1 := fst (lrun empty_lworld l1) in
  let lw2 := fst (lrun lw1 l2) in
  (exists x, lgame_at lw1 g = Some x) ->
  (unbuilt lw1 g /\ ~ unbuilt lw2 g -> yields lw2 (main_sequence_iter lw1 g) = Err AttributeError) /\
  (~ (unbuilt lw1 g /\ ~ unbuilt lw2 g) ->
     ANodes (yields lw2 (main_sequence_iter lw1 g)) = ask (fst (erun empty_world l1)) (MainSequence g)).
Proof.
  intros A1 A2 lw1 lw2 (x & Ex). destruct (C68_run_proof l1 A1) as (_ & F & _). fold lw1 in F. rewrite <- F.
  assert (linv2 lw1) as [I R] by (apply lreachable_inv; exists l1; auto). pose proof (inv_wf _ (reachable_inv _ R)) as W.
  destruct (run_ok l2 lw1 (conj I R) A2) as (_ & (GG & _) & _). fold lw2 in GG. destruct (GG _ _ Ex) as (x2 & Ex2 & Rx2 & Cx2).
  assert (root_of (forced lw1) g = lg_root x) as RO by (unfold root_of; rewrite forced_game, Ex; reflexivity).
  unfold main_sequence_iter. rewrite Ex. destruct (lg_coarse x) as [t|] eqn:C.
  - cbn [yields]. rewrite Ex2. assert (unbuilt lw1 g) as U by (exists x, t; auto). destruct Cx2 as [Cx2|Cx2].
    + split; [|intros _; rewrite Cx2; cbn [ask]; rewrite RO, (coarse_forced _ _ _ _ I Ex C); reflexivity].
      intros [_ N]. contradiction N. exists x2, t. auto.
    + rewrite Cx2. split; auto. intros N. contradiction N. split; auto. intros (y & u & Ey & Cy). congruence.
  - cbn [yields]. split; [intros [(y & u & Ey & Cy) _]; congruence|]. intros _. cbn [ask]. rewrite RO.
    pose proof (view_forced lw1 I) as S. unfold main_from. rewrite (sim_len _ _ _ S). erewrite q_main; eauto.
    destruct (root_born _ _ _ I W Ex) as (s & Es & Os & Bs). eapply built_live; eauto. rewrite Os. exists x. auto.
Qed.

Lemma C68_nodes_proof l n s : lapplicable_all empty_lworld l -> slot_at (fst (lrun empty_lworld l)) n = Some s ->
  exists x, node_at (fst (erun empty_world l)) n = Some x /\ t_owner x = s_owner s /\ t_props x = s_props s /\
    (~ unbuilt (fst (lrun empty_lworld l)) (s_owner s) -> s_node s = Some (t_parent x, t_kids x)).
Proof.
  intros A E. destruct (C68_run_proof l A) as (_ & F & _). rewrite <- F. set (lw := fst (lrun empty_lworld l)) in *.
  assert (linv2 lw) as [I R] by (apply lreachable_inv; exists l; auto). rewrite forced_at, E. exists (forced_node lw n s). split; [reflexivity|].
  split; [reflexivity|]. split; [reflexivity|]. intros N. destruct (li_owner _ I _ _ E) as (x & Ex).
  destruct (lg_coarse x) as [t|] eqn:C; [contradiction N; exists x, t; auto|]. unfold forced_node. cbn [t_parent t_kids]. unfold final_links. rewrite Ex, C.
  pose proof (li_eager _ I _ _ _ E Ex C) as B. destruct (s_node s) as [[p k]|]; [reflexivity|congruence].
Qed.
