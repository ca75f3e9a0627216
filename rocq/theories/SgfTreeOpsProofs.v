(** Proofs about histories of operations on SGF games (C19). *)
From Coq Require Import Permutation.
From Verif Require Import Base Bytes PyStr Dict SgfGrammarModel SgfGrammarSpec SgfTreeConvModel
  SgfTreeConvProofs CommonModel SgfPropsModel SgfTreeModel SgfTreeSpec SgfTreeProofs.

(** ** delete *)

Lemma cut_id n t : ~ In n (labels t) -> cut n t = t.
Proof.
  induction t as [m ks IH] using rose_ind2. simpl. intros H. f_equal.
  assert (~ In n (flat_map labels ks)) as H2 by tauto. clear H.
  induction ks as [|k ks IHks]; simpl; auto. inversion IH as [|? ? A B]; subst.
  simpl in H2. rewrite in_app_iff in H2.
  assert (label k <> n) as N.
  { intros E. apply H2. left. destruct k; simpl in *. auto. }
  destruct (Nat.eqb_spec (label k) n); [congruence|]. simpl. rewrite A, IHks by tauto. reflexivity.
Qed.

Lemma cut_top n ts : ~ In n (flat_map labels ts) -> cut n (R n ts) = R n ts.
Proof.
  intros H. simpl. f_equal. induction ts as [|k ts IH]; simpl; auto.
  simpl in H. rewrite in_app_iff in H.
  assert (label k <> n) as N.
  { intros E. apply H. left. destruct k; simpl in *. auto. }
  destruct (Nat.eqb_spec (label k) n); [congruence|]. simpl. rewrite cut_id by tauto.
  rewrite IH by tauto. reflexivity.
Qed.


Lemma unlink_spec w n p x y : wf w -> node_at w n = Some x -> t_parent x = Some p ->
  node_at w p = Some y ->
  (In n (t_kids y) -> unlink w n p = Ok (set_node w p (with_kids (drop n (t_kids y)) y))) /\
  (~ In n (t_kids y) -> unlink w n p = Err ValueError).
Proof.
  intros W En Pn Ep. unfold unlink. rewrite Ep. destruct (py_remove n (t_kids y)) as [l|] eqn:E.
  - destruct (py_remove_some _ _ _ E (wf_nodup _ W _ _ Ep)) as [Hi ->]. split; [reflexivity|tauto].
  - apply py_remove_none in E. tauto.
Qed.

Lemma attached_dec w n : attached w n \/ ~ attached w n.
Proof.
  destruct (node_at w n) as [x|] eqn:En.
  2:{ right. intros (p & l & (y & E & _) & _). congruence. }
  destruct (t_parent x) as [p|] eqn:Pn.
  2:{ right. intros (p & l & (y & E & P) & _). congruence. }
  destruct (node_at w p) as [y|] eqn:Ep.
  2:{ right. intros (q & l & (z & E & P) & (z' & E' & _) & _). assert (q = p) by congruence. congruence. }
  destruct (in_dec Nat.eq_dec n (t_kids y)) as [H|H].
  - left. exists p, (t_kids y). split; [exists x; auto|]. split; [exists y; auto|auto].
  - right. intros (q & l & (z & E & P) & (z' & E' & K) & Hi). assert (q = p) by congruence. subst q.
    rewrite Ep in E'. injection E' as <-. congruence.
Qed.

Lemma unlink_same_data w p y l : node_at w p = Some y ->
  same_data w (set_node w p (with_kids l y)).
Proof.
  intros Ep. split; [reflexivity|]. split; [apply update_len|]. intros m x Em. rewrite node_at_set.
  destruct (Nat.eqb_spec p m) as [->|N]; [|eauto].
  rewrite Ep in Em. injection Em as <-. pose proof (node_at_lt _ _ _ Ep) as L. apply Nat.ltb_lt in L.
  rewrite L. eexists. split; [reflexivity|]. split; reflexivity.
Qed.

Lemma delete_ok w n : wf w -> attached w n ->
  exists w', delete w n = (w', Ok tt) /\ wf w' /\ same_data w w' /\ ~ attached w' n /\
    (forall q, parent_is w n q -> parent_is w' n q) /\
    (forall m t, tree_of w m t -> tree_of w' m (cut n t)) /\
    (forall t, tree_of w n t -> tree_of w' n t).
Proof.
  intros W (p & l & (x & En & Pn) & (y & Ep & K) & Hi). subst l. unfold delete. rewrite En, Pn.
  destruct (unlink_spec w n p x y W En Pn Ep) as [U _]. rewrite (U Hi).
  eexists. split; [reflexivity|].
  assert (forall m t, tree_of w m t -> tree_of (set_node w p (with_kids (drop n (t_kids y)) y)) m (cut n t)) as T.
  { intros m t. apply (unlink_tree w n p x y W En Pn Ep). }
  assert (exists x', node_at (set_node w p (with_kids (drop n (t_kids y)) y)) n = Some x' /\ t_parent x' = t_parent x) as (x' & Ex' & Px').
  { destruct (unlink_node w n p x y W En Pn Ep _ _ En) as (x' & ? & _ & ? & _). eauto. }
  split; [eapply unlink_wf; eauto|]. split; [apply unlink_same_data; auto|]. split; [|split; [|split]].
  - intros (q & l & (z & Ez & Pz) & (u & Eu & Ku) & H). subst l.
    assert (q = p) by congruence. subst q.
    destruct (unlink_node_inv w n p x y W En Pn Ep _ _ Eu) as (v & Ev & _ & _ & _ & Kv).
    rewrite Kv in H. apply drop_In in H. tauto.
  - intros q (z & Ez & Pz). assert (z = x) by congruence. subst z. exists x'. split; auto. congruence.
  - exact T.
  - intros t Tn. pose proof (T n t Tn) as T2. replace (cut n t) with t in T2; auto.
    pose proof (labels_nodup _ _ _ W Tn) as ND. inversion Tn as [? x1 ts E1 F1]; subst.
    simpl in ND. apply NoDup_cons_iff in ND. symmetry. apply cut_top. tauto.
Qed.

Lemma delete_err w n : wf w -> (n < List.length (w_nodes w))%nat -> ~ attached w n ->
  delete w n = (w, Err ValueError).
Proof.
  intros W L NA. destruct (node_at_some _ _ L) as (x & En). unfold delete. rewrite En.
  destruct (t_parent x) as [p|] eqn:Pn; [|reflexivity].
  destruct (wf_parent _ W _ _ _ En Pn) as (y & Ep & _).
  destruct (unlink_spec w n p x y W En Pn Ep) as [_ U]. rewrite U; [reflexivity|].
  intros H. apply NA. exists p, (t_kids y). split; [exists x; auto|]. split; [exists y; auto|auto].
Qed.

(** ** reparent *)

Lemma above_keeps w w' n m : keeps_parents w w' -> above w n m -> above w' n m.
Proof.
  intros K A. induction A as [|m p (x & E & P) A IH]; [constructor|].
  destruct (K _ _ E) as (x' & E' & P'). eapply above_up; [|exact IH]. exists x'. split; auto. congruence.
Qed.

Lemma reparent_ok w n np index : wf w ->
  attached w n -> (exists g, owner_is w n g /\ owner_is w np g) -> ~ above w n np ->
  exists w', reparent w n np index = (w', Ok tt) /\ wf w' /\ same_data w w' /\
    attached w' n /\ parent_is w' n (Some np) /\
    (forall tn m t, tree_of w n tn -> tree_of w m t ->
       exists t', inserted np index tn (cut n t) t' /\ tree_of w' m t') /\
    (forall tn, tree_of w n tn -> tree_of w' n tn) /\
    (forall q, lists w' q n <-> q = np) /\
    (forall q m, m <> n -> (lists w' q m <-> lists w q m)).
Proof.
  intros W (p & l & (x & En & Pn) & (y & Ep & K) & Hi) (g & (x0 & E0 & O0) & (z & Enp & Oz)) NL. subst l.
  rewrite En in E0. injection E0 as <-. unfold reparent. rewrite En, Enp, O0, Oz, Nat.eqb_refl. simpl negb.
  destruct (wf_up _ W _ _ Enp) as (lu & U).
  rewrite (walk_meets_ok w np lu n _ U) by (pose proof (up_length _ _ _ U); lia).
  assert (existsb (Nat.eqb n) lu = false) as ->.
  { destruct (existsb (Nat.eqb n) lu) eqn:X; auto. exfalso. apply NL.
    apply (above_iff w n np lu U). apply existsb_eqb_In. auto. }
  cbn iota. rewrite Pn. destruct (unlink_spec w n p x y W En Pn Ep) as [Ul _]. rewrite (Ul Hi).
  set (w1 := set_node w p (with_kids (drop n (t_kids y)) y)).
  assert (wf w1) as W1 by (apply (unlink_wf w n p x y W En Pn Ep)).
  destruct (unlink_node w n p x y W En Pn Ep _ _ En) as (x1 & E1 & O1 & P1 & D1 & K1). fold w1 in E1.
  destruct (unlink_node w n p x y W En Pn Ep _ _ Enp) as (z1 & Ez1 & Oz1 & Pz1 & Dz1 & Kz1). fold w1 in Ez1.
  rewrite E1.
  assert (n <> np) as Nn by (intros ->; apply NL; constructor).
  rewrite node_at_set_other by auto. rewrite Ez1.
  eexists. split; [reflexivity|].
  set (w' := set_node (set_node w1 n (with_parent np x1)) np (with_kids (place_at index n (t_kids z1)) z1)).
  assert (t_parent x1 <> None) as Root by congruence.
  assert (forall q u, node_at w1 q = Some u -> ~ In n (t_kids u)) as Free.
  { intros q u Eu H. destruct (unlink_node_inv w n p x y W En Pn Ep _ _ Eu) as (v & Ev & _ & _ & _ & Kv).
    rewrite Kv in H. apply drop_In in H. tauto. }
  assert (t_owner z1 = t_owner x1) as Same by congruence.
  assert (~ above w1 n np) as NL1.
  { intros A. apply NL. eapply above_keeps; [|exact A]. intros m u Eu.
    destruct (unlink_node_inv w n p x y W En Pn Ep _ _ Eu) as (v & Ev & _ & Pv & _). eauto. }
  pose proof (attach_wf w1 n np index x1 z1 W1 E1 Ez1 Root Free Same NL1) as W'. fold w' in W'.
  pose proof (attach_node w1 n np index x1 z1 E1 Ez1 Free NL1) as AN. fold w' in AN.
  pose proof (attach_node_inv w1 n np index x1 z1 E1 Ez1 Free NL1) as ANI. fold w' in ANI.
  assert (forall q m, lists w' q m <-> (m = n /\ q = np) \/ lists w1 q m) as LA.
  { intros q m. split.
    - intros (l & (u & Eu & <-) & H). destruct (ANI _ _ Eu) as (v & Ev & _ & _ & _ & Kv).
      rewrite Kv in H. destruct (Nat.eqb_spec q np) as [->|N].
      + apply place_at_In in H. destruct H as [->|H]; [auto|]. right. exists (t_kids v). split; [exists v; auto|auto].
      + right. exists (t_kids v). split; [exists v; auto|auto].
    - intros [[-> ->]|(l & (u & Eu & <-) & H)].
      + destruct (AN _ _ Ez1) as (v & Ev & _ & _ & _ & Kv). rewrite Nat.eqb_refl in Kv.
        exists (t_kids v). split; [exists v; auto|]. rewrite Kv. apply place_at_In. auto.
      + destruct (AN _ _ Eu) as (v & Ev & _ & _ & _ & Kv). exists (t_kids v). split; [exists v; auto|].
        rewrite Kv. destruct (Nat.eqb q np); auto. apply place_at_In. auto. }
  assert (forall q m, lists w1 q m <-> m <> n /\ lists w q m) as LU.
  { intros q m. split.
    - intros (l & (u & Eu & <-) & H).
      destruct (unlink_node_inv w n p x y W En Pn Ep _ _ Eu) as (v & Ev & _ & _ & _ & Kv).
      rewrite Kv in H. apply drop_In in H. split; [tauto|]. exists (t_kids v). split; [exists v; auto|tauto].
    - intros [N (l & (u & Eu & <-) & H)].
      destruct (unlink_node w n p x y W En Pn Ep _ _ Eu) as (v & Ev & _ & _ & _ & Kv).
      exists (t_kids v). split; [exists v; auto|]. rewrite Kv. apply drop_In. auto. }
  split; [exact W'|]. split; [|split; [|split; [|split; [|split; [|split]]]]].
  - split; [reflexivity|]. split; [unfold w', w1, set_node; simpl; rewrite !update_len; reflexivity|]. intros m u Eu.
    destruct (unlink_node w n p x y W En Pn Ep _ _ Eu) as (u1 & Eu1 & Ou & _ & Du & _). fold w1 in Eu1.
    destruct (AN _ _ Eu1) as (u2 & Eu2 & Ou2 & Du2 & _). exists u2. split; auto. split; congruence.
  - destruct (AN _ _ E1) as (x2 & Ex2 & _ & _ & Px2 & _). rewrite Nat.eqb_refl in Px2.
    destruct (AN _ _ Ez1) as (z2 & Ez2 & _ & _ & _ & Kz2). rewrite Nat.eqb_refl in Kz2.
    exists np, (t_kids z2). split; [exists x2; auto|]. split; [exists z2; auto|].
    rewrite Kz2. apply place_at_In. auto.
  - destruct (AN _ _ E1) as (x2 & Ex2 & _ & _ & Px2 & _). rewrite Nat.eqb_refl in Px2. exists x2. auto.
  - intros tn m t Tn T.
    pose proof (unlink_tree w n p x y W En Pn Ep _ _ T) as T1. fold w1 in T1.
    pose proof (unlink_tree w n p x y W En Pn Ep _ _ Tn) as Tn1. fold w1 in Tn1.
    assert (cut n tn = tn) as C.
    { pose proof (labels_nodup _ _ _ W Tn) as ND. inversion Tn as [? xx ts Ex Fx]; subst.
      simpl in ND. apply NoDup_cons_iff in ND. apply cut_top. tauto. }
    rewrite C in Tn1.
    apply (attach_tree w1 n np index x1 z1 W1 E1 Ez1 Free NL1 tn Tn1 m (cut n t) T1).
  - intros tn Tn.
    pose proof (unlink_tree w n p x y W En Pn Ep _ _ Tn) as Tn1. fold w1 in Tn1.
    assert (cut n tn = tn) as C.
    { pose proof (labels_nodup _ _ _ W Tn) as ND. inversion Tn as [? xx ts Ex Fx]; subst.
      simpl in ND. apply NoDup_cons_iff in ND. apply cut_top. tauto. }
    rewrite C in Tn1. apply (attach_tree_same w1 n np index x1 z1 E1 Ez1 Free NL1); auto.
    intros H. apply NL1. eapply tree_above; eauto.
  - intros q. rewrite LA, LU. tauto.
  - intros q m N. rewrite LA, LU. tauto.
Qed.

Lemma reparent_err w n np index : wf w ->
  (n < List.length (w_nodes w))%nat -> (np < List.length (w_nodes w))%nat ->
  (~ attached w n \/ ~ (exists g, owner_is w n g /\ owner_is w np g) \/ above w n np) ->
  reparent w n np index = (w, Err ValueError).
Proof.
  intros W L1 L2 H. destruct (node_at_some _ _ L1) as (x & En). destruct (node_at_some _ _ L2) as (y & Enp).
  unfold reparent. rewrite En, Enp.
  destruct (Nat.eqb_spec (t_owner y) (t_owner x)) as [O|O]; [|reflexivity]. simpl negb. cbn iota.
  destruct (wf_up _ W _ _ Enp) as (lu & U).
  rewrite (walk_meets_ok w np lu n _ U) by (pose proof (up_length _ _ _ U); lia).
  destruct (existsb (Nat.eqb n) lu) eqn:X; [reflexivity|].
  assert (~ above w n np) as NL.
  { intros A. apply (above_iff w n np lu U) in A. apply existsb_eqb_In in A. congruence. }
  destruct (t_parent x) as [p|] eqn:Pn.
  - destruct (wf_parent _ W _ _ _ En Pn) as (z & Ep & _).
    destruct (unlink_spec w n p x z W En Pn Ep) as [_ Ul].
    destruct (in_dec Nat.eq_dec n (t_kids z)) as [Hi|Hi].
    + exfalso. destruct H as [H|[H|H]]; auto.
      * apply H. exists p, (t_kids z). split; [exists x; auto|]. split; [exists z; auto|auto].
      * apply H. exists (t_owner x). split; [exists x; auto|exists y; auto].
    + rewrite (Ul Hi). reflexivity.
  - exfalso. (* the root is above every node of its game *)
    apply NL. destruct (wf_root _ W _ _ En Pn) as (g & G & R).
    assert (forall m l, up w m l -> forall z, node_at w m = Some z -> t_owner z = t_owner x -> In n l) as T.
    { intros m l Um. induction Um as [m z Em Pm|m z q l Em Pm Um IH]; intros z0 E0 Oz.
      - assert (z0 = z) by congruence. subst z0. destruct (wf_root _ W _ _ Em Pm) as (g' & G' & R').
        rewrite Oz in G'. left. congruence.
      - assert (z0 = z) by congruence. subst z0. destruct (wf_parent _ W _ _ _ Em Pm) as (v & Ev & Ov).
        right. eapply IH; eauto. congruence. }
    apply (above_iff w n np lu U). eapply T; eauto.
Qed.
