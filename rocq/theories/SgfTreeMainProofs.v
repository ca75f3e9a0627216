(** The theorems of C19: SGF games stay trees, and edits do what they say. *)
From Verif Require Import Base Bytes PyStr Dict SgfGrammarModel SgfGrammarSpec SgfTreeConvModel
  SgfTreeConvProofs CommonModel SgfPropsModel SgfTreeModel SgfTreeSpec SgfTreeProofs SgfTreeOpsProofs
  SgfNodeProofs SgfGameProofs.

Lemma kids_of_tree w n t : tree_of w n t -> forall p y c, In p (labels t) -> node_at w p = Some y ->
  In c (t_kids y) -> In c (labels t).
Proof.
  intros T. pattern n, t. revert n t T. apply tree_of_ind2. intros n x ts E F IH p y c Hp Ep Hc.
  simpl in *. destruct Hp as [<-|Hp].
  - rewrite E in Ep. injection Ep as <-. right. apply in_flat_map.
    destruct (tree_exists_member w n x E c ts Hc F) as (t & Ht & T). exists t. split; auto.
    pose proof (tree_of_label _ _ _ T). destruct t. simpl in *. auto.
  - right. apply in_flat_map in Hp. destruct Hp as (t & Ht & Hp). apply in_flat_map. exists t. split; auto.
    clear -IH Ht Hp Ep Hc. induction IH as [|a b l l' Hab _ IHl]; [destruct Ht|].
    destruct Ht as [<-|Ht]; eauto.
Qed.

Lemma tree_valid w n t : tree_of w n t -> forall m, In m (labels t) -> exists x, node_at w m = Some x.
Proof.
  intros T. pattern n, t. revert n t T. apply tree_of_ind2. intros n x ts E F IH m H.
  simpl in H. destruct H as [<-|H]; [eauto|]. apply in_flat_map in H. destruct H as (t & Ht & Hm).
  clear -IH Ht Hm. induction IH as [|a b l l' Hab _ IHl]; [destruct Ht|].
  destruct Ht as [<-|Ht]; eauto.
Qed.

(** Every node of a tree but its top is listed by its parent, which is in the tree. *)
Lemma tree_parent w n t : wf w -> tree_of w n t -> forall m, In m (labels t) -> m <> n ->
  exists p, parent_is w m (Some p) /\ In p (labels t) /\ lists w p m.
Proof.
  intros W T. pattern n, t. revert n t T. apply tree_of_ind2. intros n x ts E F IH m H N.
  simpl in H. destruct H as [<-|H]; [congruence|]. apply in_flat_map in H. destruct H as (t & Ht & Hm).
  assert (exists c, In c (t_kids x) /\ tree_of w c t /\ (In m (labels t) -> m <> c ->
            exists p, parent_is w m (Some p) /\ In p (labels t) /\ lists w p m)) as (c & Hc & Tc & G).
  { clear -IH F Ht. revert F. induction IH as [|a b l l' Hab _ IHl]; intros F; [destruct Ht|].
    inversion F; subst. destruct Ht as [<-|Ht]; [exists a; split; [left; auto|split; auto]|].
    destruct (IHl Ht) as (c & ? & ? & ?); auto. exists c. split; [right; auto|auto]. }
  destruct (Nat.eq_dec m c) as [->|Nc].
  - destruct (wf_kids _ W _ _ _ E Hc) as (y & Ey & Py). exists n. split; [exists y; auto|].
    split; [left; auto|]. exists (t_kids x). split; [exists x; auto|auto].
  - destruct (G Hm Nc) as (p & P1 & P2 & P3). exists p. split; auto. split; auto.
    right. apply in_flat_map. eauto.
Qed.

Lemma count_occ_nodup l n : NoDup l -> In n l -> count_occ Nat.eq_dec l n = 1%nat.
Proof.
  intros ND H. pose proof (proj1 (NoDup_count_occ Nat.eq_dec l) ND n).
  apply (count_occ_In Nat.eq_dec) in H. lia.
Qed.

Lemma inv_tree w i g : wf w -> game_at w i = Some g -> game_is_tree w i (g_root g).
Proof.
  intros W G. destruct (wf_game _ W _ _ G) as (x & E & P & O).
  destruct (tree_exists _ _ _ W E) as (t & T). exists t. split; auto.
  split; [eapply labels_nodup; eauto|]. split; [exists x; auto|]. split; [|split].
  - intros q l (y & Ey & <-) H. destruct (wf_kids _ W _ _ _ Ey H) as (z & Ez & Pz). congruence.
  - intros n H. pose proof (tree_above _ _ _ W T n H) as A. clear H T.
    induction A as [|m p (y & Ey & Py) A IH]; [exists x; auto|].
    destruct IH as (z & Ez & Oz). destruct (wf_parent _ W _ _ _ Ey Py) as (z' & Ez' & Oz').
    exists y. split; auto. congruence.
  - intros n H N. destruct (tree_parent _ _ _ W T n H N) as (p & Pp & Hp & (l & (y & Ey & <-) & Hl)).
    exists p, (t_kids y). split; auto. split; auto. split; [exists y; auto|]. split.
    + apply count_occ_nodup; auto. eapply wf_nodup; eauto.
    + intros q l' Nq (z & Ez & <-) H'. destruct (wf_kids _ W _ _ _ Ez H') as (u & Eu & Pu).
      destruct Pp as (v & Ev & Pv). congruence.
Qed.

Lemma C19_tree_proof w i g : reachable_world w -> game_at w i = Some g -> game_is_tree w i (g_root g).
Proof. intros R. apply inv_tree. apply inv_wf. apply reachable_inv. auto. Qed.

(** new_child *)
Lemma C19_new_child_proof w p index : reachable_world w -> (p < List.length (w_nodes w))%nat ->
  let c := List.length (w_nodes w) in
  exists w', new_child w p index = (w', Ok tt) /\
    parent_is w' c (Some p) /\ tree_of w' c (R c []) /\ data_of w' c (NT [] []) /\
    (forall g, owner_is w p g -> owner_is w' c g) /\
    (forall n t, tree_of w n t -> exists t', inserted p index (R c []) t t' /\ tree_of w' n t') /\
    w_games w' = w_games w /\
    (forall n x, node_at w n = Some x -> exists x', node_at w' n = Some x' /\
       t_props x' = t_props x /\ t_owner x' = t_owner x /\ t_parent x' = t_parent x).
Proof.
  intros R L c. destruct (node_at_some _ _ L) as (x & E). pose proof (inv_wf _ (reachable_inv _ R)) as W.
  unfold new_child. rewrite E. eexists. split; [reflexivity|].
  pose proof (new_node_leaf w p index [] x E) as EL. fold c in EL.
  split; [eexists; split; [exact EL|reflexivity]|].
  split; [eapply tree_of_intro; [exact EL|constructor]|].
  split; [change (NT [] []) with (NT (t_props (mkT (t_owner x) (Some p) [] [])) []); econstructor; [exact EL|constructor]|].
  split; [intros g (y & Ey & Oy); eexists; split; [exact EL|]; simpl; congruence|].
  split; [intros n t T; apply (new_node_tree w p index [] x E n t T)|].
  destruct (new_node_extends w p index [] x E) as (G & _ & C). split; auto.
Qed.

(** delete *)
Lemma C19_delete_proof w n : reachable_world w -> (n < List.length (w_nodes w))%nat ->
  (attached w n -> exists w', delete w n = (w', Ok tt) /\ same_data w w' /\ ~ attached w' n /\
     (forall m t, tree_of w m t -> tree_of w' m (cut n t)) /\
     (forall t, tree_of w n t -> tree_of w' n t)) /\
  (~ attached w n -> delete w n = (w, Err ValueError)).
Proof.
  intros R L. pose proof (inv_wf _ (reachable_inv _ R)) as W. split.
  - intros A. destruct (delete_ok w n W A) as (w' & E & _ & D & N & _ & T & Tn). exists w'. auto.
  - apply delete_err; auto.
Qed.

(** reparent *)
Lemma C19_reparent_proof w n np index : reachable_world w ->
  (n < List.length (w_nodes w))%nat -> (np < List.length (w_nodes w))%nat ->
  let allowed := attached w n /\ (exists g, owner_is w n g /\ owner_is w np g) /\ ~ above w n np in
  (allowed -> exists w', reparent w n np index = (w', Ok tt) /\ same_data w w' /\
     parent_is w' n (Some np) /\
     (forall m q, m <> n -> parent_is w m q -> parent_is w' m q) /\
     (forall tn m t, tree_of w n tn -> tree_of w m t ->
        exists t', inserted np index tn (cut n t) t' /\ tree_of w' m t') /\
     (forall tn, tree_of w n tn -> tree_of w' n tn)) /\
  (~ allowed -> reparent w n np index = (w, Err ValueError)).
Proof.
  intros R L1 L2 allowed. pose proof (inv_wf _ (reachable_inv _ R)) as W. split.
  - intros (A & O & N).
    destruct (reparent_ok w n np index W A O N) as (w' & E & W' & D & At & P & T & Tn & Q1 & Q2).
    exists w'. split; auto. split; auto. split; auto. split; [|auto].
    intros m q Nm (x & Ex & Px). destruct D as (G & Len & C). destruct (C _ _ Ex) as (x' & Ex' & _ & Ox').
    (* the parent attribute is only assigned on [n] *)
    exists x'. split; auto.
    unfold reparent in E. destruct (node_at w n) as [xn|] eqn:En; [|discriminate].
    destruct (node_at w np) as [yn|] eqn:Enp; [|discriminate].
    destruct (negb _); [discriminate|]. destruct (walk_meets _ _ _ _) as [[|]|]; try discriminate.
    destruct (t_parent xn) as [p|] eqn:Pn; [|discriminate].
    unfold unlink in E. destruct (node_at w p) as [yp|] eqn:Ep; [|discriminate].
    destruct (py_remove n (t_kids yp)) as [l|]; [|discriminate].
    set (w1 := set_node w p (with_kids l yp)) in *.
    assert (exists u, node_at w1 m = Some u /\ t_parent u = q) as (u & Eu & Pu).
    { unfold w1. rewrite node_at_set. destruct (Nat.eqb_spec p m) as [->|N1].
      - pose proof (node_at_lt _ _ _ Ep) as Ep'. apply Nat.ltb_lt in Ep'. rewrite Ep'. eexists. split; [reflexivity|]. simpl. congruence.
      - eauto. }
    assert (exists u, node_at (match node_at w1 n with Some x1 => set_node w1 n (with_parent np x1) | None => w1 end) m = Some u /\ t_parent u = q) as (u2 & Eu2 & Pu2).
    { destruct (node_at w1 n) as [x1|]; [|eauto]. rewrite node_at_set_other by auto. eauto. }
    set (w2 := match node_at w1 n with Some x1 => set_node w1 n (with_parent np x1) | None => w1 end) in *.
    destruct (node_at w2 np) as [y2|] eqn:Ey2; [|discriminate]. unfold done in E. injection E as <-.
    rewrite node_at_set in Ex'. destruct (Nat.eqb_spec np m) as [->|N1].
    + destruct (Nat.ltb _ _); [|discriminate]. injection Ex' as <-. simpl. congruence.
    + congruence.
  - intros NA. apply reparent_err; auto.
    destruct (attached_dec w n) as [A|A]; auto.
    destruct (same_owner_dec w n np L1 L2) as [O|O]; auto.
    destruct (above_dec w n np W L2) as [B|B]; auto. exfalso. apply NA. split; auto.
Qed.

(** ** Reparenting inside the tree of a game *)

Inductive connected (w : world) (r : nat) : nat -> Prop :=
| con_root : connected w r r
| con_kid p m : connected w r p -> lists w p m -> connected w r m.

Lemma tree_connected w r t : wf w -> tree_of w r t -> forall m, In m (labels t) <-> connected w r m.
Proof.
  intros W T m. split.
  - intros H. destruct (tree_valid _ _ _ T m H) as (x & Ex). destruct (wf_up _ W _ _ Ex) as (l & U).
    clear x Ex. induction U as [m x E P|m x p l E P U IH].
    + destruct (Nat.eq_dec m r) as [->|N]; [constructor|].
      destruct (tree_parent _ _ _ W T m H N) as (p & (y & Ey & Py) & _). congruence.
    + destruct (Nat.eq_dec m r) as [->|N]; [constructor|].
      destruct (tree_parent _ _ _ W T m H N) as (p' & (y & Ey & Py) & Hp & Li).
      assert (p' = p) by congruence. subst. econstructor; eauto.
  - intros C. induction C as [|p m C IH (l & (y & Ey & <-) & H)].
    + pose proof (tree_of_label _ _ _ T). destruct t; simpl in *. auto.
    + eapply kids_of_tree; eauto.
Qed.

Lemma above_in_tree w r t n tn np : wf w -> tree_of w r t -> tree_of w n tn -> In np (labels t) ->
  In n (labels t) -> (above w n np <-> In np (labels tn)).
Proof.
  intros W T Tn H Hn. split; [|apply (tree_above _ _ _ W Tn)].
  intros A. revert H. induction A as [|m p Pm A IH]; intros H.
  - pose proof (tree_of_label _ _ _ Tn). destruct tn; simpl in *. auto.
  - destruct (Nat.eq_dec m r) as [->|N].
    + (* [r]'s own parent is not in the tree: only possible when r is n *)
      destruct (Nat.eq_dec r n) as [->|Nr].
      { pose proof (tree_of_label _ _ _ Tn). destruct tn; simpl in *. auto. }
      exfalso. pose proof (tree_above _ _ _ W T n Hn) as B.
      assert (above w n r) as A2 by (eapply above_up; eauto).
      assert (exists l, up w r l) as (l & U).
      { destruct Pm as (y & Ey & _). eapply wf_up; eauto. }
      assert (exists l, up w n l) as (l' & U').
      { destruct (tree_valid _ _ _ T n Hn) as (y & Ey). eapply wf_up; eauto. }
      apply (above_iff w n r l U) in A2. apply (above_iff w r n l' U') in B.
      destruct (up_suffix _ _ _ _ U A2) as (a1 & a2 & Ea & Ua). pose proof (up_fun _ _ _ _ Ua U') as ->.
      destruct (up_suffix _ _ _ _ U' B) as (b1 & b2 & Eb & Ub). pose proof (up_fun _ _ _ _ Ub U) as ->.
      rewrite Eb in Ea. apply (f_equal (@List.length nat)) in Ea. rewrite !app_length in Ea.
      assert (a1 = []) by (destruct a1; auto; simpl in Ea; lia).
      assert (b1 = []) by (destruct b1; auto; simpl in Ea; lia). subst b1. simpl in Eb. subst l'.
      destruct (up_head _ _ _ U) as (q1 & E1). destruct (up_head _ _ _ U') as (q2 & E2). congruence.
    + destruct (tree_parent _ _ _ W T m H N) as (p' & (y & Ey & Py) & Hp & (l & (z & Ez & <-) & Li)).
      destruct Pm as (y' & Ey' & Py'). assert (p' = p) by congruence. subst p'.
      eapply kids_of_tree; eauto.
Qed.

Lemma C19_reparent_tree_proof w i g t n np index tn : reachable_world w -> game_at w i = Some g ->
  tree_of w (g_root g) t -> In n (labels t) -> In np (labels t) -> tree_of w n tn ->
  (In np (labels tn) -> reparent w n np index = (w, Err ValueError)) /\
  (~ In np (labels tn) -> exists w' t', reparent w n np index = (w', Ok tt) /\ same_data w w' /\
     tree_of w' (g_root g) t' /\ inserted np index tn (cut n t) t' /\
     (forall m, In m (labels t') <-> In m (labels t)) /\ tree_of w' n tn).
Proof.
  intros R G T Hn Hnp Tn. pose proof (inv_wf _ (reachable_inv _ R)) as W.
  destruct (tree_valid _ _ _ T n Hn) as (x & Ex). destruct (tree_valid _ _ _ T np Hnp) as (y & Ey).
  pose proof (above_in_tree w _ t n tn np W T Tn Hnp Hn) as AB. split.
  - intros H. apply reparent_err; auto; try (eapply node_at_lt; eauto; fail). right. right. apply AB. auto.
  - intros H. assert (n <> g_root g) as Nr.
    { intros ->. pose proof (tree_of_fun _ _ _ _ T Tn). subst. auto. }
    destruct (tree_parent _ _ _ W T n Hn Nr) as (p & Pp & Hp & Lp).
    assert (attached w n) as At.
    { destruct Lp as (l & K & Hl). exists p, l. auto. }
    destruct (inv_tree _ _ _ W G) as (t0 & T0 & _ & _ & _ & Ow & _).
    rewrite (tree_of_fun _ _ _ _ T0 T) in Ow.
    destruct (reparent_ok w n np index W At) as (w' & E & W' & D & _ & _ & TT & TTn & Q1 & Q2).
    { exists i. auto. }
    { intros A. apply H. apply AB. auto. }
    destruct (TT tn _ t Tn T) as (t' & I & T'). exists w', t'.
    split; auto. split; auto. split; auto. split; auto. split; [|auto].
    intros m. rewrite (tree_connected _ _ _ W' T'), (tree_connected _ _ _ W T).
    apply (tree_connected _ _ _ W T) in Hn, Hnp.
    assert (forall m, connected w (g_root g) m -> ~ above w n m -> connected w' (g_root g) m) as C1.
    { intros m0 C. induction C as [|q m0 C IH Li]; intros NA; [constructor|].
      assert (m0 <> n) as N by (intros ->; apply NA; constructor).
      econstructor; [apply IH|apply Q2; eauto].
      intros A. apply NA. destruct Li as (l & (u & Eu & <-) & Hl).
      destruct (wf_kids _ W _ _ _ Eu Hl) as (v & Ev & Pv). eapply above_up; [exists v; eauto|auto]. }
    assert (connected w' (g_root g) np) as Cnp.
    { apply C1; auto. intros A. apply H. apply AB. auto. }
    split; intros C.
    + induction C as [|q m C IH Li]; [constructor|]. destruct (Nat.eq_dec m n) as [->|N]; [auto|].
      econstructor; [exact IH|]. apply Q2; auto.
    + induction C as [|q m C IH Li]; [constructor|]. destruct (Nat.eq_dec m n) as [->|N].
      * econstructor; [exact Cnp|]. apply Q1. auto.
      * econstructor; [exact IH|]. apply Q2; auto.
Qed.
