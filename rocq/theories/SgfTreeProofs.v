(** Proofs about tree editing (C19). *)
From Coq Require Import Permutation.
From Verif Require Import Base Bytes PyStr Dict SgfGrammarModel SgfGrammarSpec SgfTreeConvModel
  SgfTreeConvProofs CommonModel SgfPropsModel SgfTreeModel SgfTreeSpec.

(** ** Lists *)

Lemma nth_update {A} i j (x : A) h :
  nth_error (update i x h) j =
    if Nat.eqb i j then (if Nat.ltb j (List.length h) then Some x else None) else nth_error h j.
Proof.
  revert i j. induction h as [|y h IH]; intros [|i] [|j]; simpl; auto.
  - destruct (Nat.eqb i j); reflexivity.
  - rewrite IH. destruct (Nat.eqb i j); auto.
Qed.

Lemma update_len {A} i (x : A) h : List.length (update i x h) = List.length h.
Proof. revert i. induction h as [|y h IH]; intros [|i]; simpl; auto. Qed.

Lemma node_at_set w n x m :
  node_at (set_node w n x) m =
    if Nat.eqb n m then (if Nat.ltb m (List.length (w_nodes w)) then Some x else None) else node_at w m.
Proof. unfold node_at, set_node. simpl. apply nth_update. Qed.

Lemma node_at_lt w n x : node_at w n = Some x -> (n < List.length (w_nodes w))%nat.
Proof. unfold node_at. intros E. apply nth_error_Some. congruence. Qed.

Lemma node_at_some w n : (n < List.length (w_nodes w))%nat -> exists x, node_at w n = Some x.
Proof.
  unfold node_at. intros H. destruct (nth_error (w_nodes w) n) eqn:E; [eauto|].
  apply nth_error_None in E. lia.
Qed.

Lemma node_at_set_same w n x y : node_at w n = Some y -> node_at (set_node w n x) n = Some x.
Proof.
  intros E. rewrite node_at_set, Nat.eqb_refl.
  apply node_at_lt in E. apply Nat.ltb_lt in E. rewrite E. reflexivity.
Qed.

Lemma node_at_set_other w n x m : n <> m -> node_at (set_node w n x) m = node_at w m.
Proof. intros N. rewrite node_at_set. destruct (Nat.eqb_spec n m); congruence. Qed.

Lemma py_remove_some x l l' : py_remove x l = Some l' -> NoDup l ->
  In x l /\ l' = filter (fun y => negb (Nat.eqb y x)) l.
Proof.
  revert l'. induction l as [|y l IH]; simpl; intros l' E ND; [discriminate|].
  inversion ND as [|? ? N1 N2]; subst.
  destruct (Nat.eqb_spec x y) as [->|N].
  - injection E as <-. rewrite Nat.eqb_refl. simpl. split; auto.
    clear -N1. induction l as [|z l IH]; simpl; auto. simpl in N1.
    destruct (Nat.eqb_spec z y); simpl; [exfalso; apply N1; auto|]. rewrite <- IH; auto.
  - destruct (py_remove x l) as [r|] eqn:E2; [|discriminate]. simpl in E. injection E as <-.
    destruct (IH r eq_refl N2) as [Hi ->]. split; auto.
    destruct (Nat.eqb_spec y x); [congruence|]. reflexivity.
Qed.

Lemma py_remove_none x l : py_remove x l = None <-> ~ In x l.
Proof.
  induction l as [|y l IH]; simpl; [tauto|].
  destruct (Nat.eqb_spec x y) as [->|N]; [split; [discriminate|intros H; exfalso; apply H; auto]|].
  destruct (py_remove x l) as [r|]; simpl.
  - split; [discriminate|]. intros H. exfalso. apply H. right.
    destruct (in_dec Nat.eq_dec x l); auto. apply IH in n. discriminate.
  - split; auto. intros _ [E|H]; [congruence|]. apply IH in H; auto.
Qed.

(** ** [list.insert] *)

Lemma place_at_app {A} idx (x : A) l : exists l1 l2, l = l1 ++ l2 /\ place_at idx x l = l1 ++ x :: l2.
Proof.
  destruct idx as [i|]; simpl.
  - unfold py_insert. eexists _, _. split; [|reflexivity]. symmetry. apply firstn_skipn.
  - exists l, []. rewrite app_nil_r. auto.
Qed.

Lemma place_at_insert {A} idx (x : A) l : insert_at idx x l (place_at idx x l).
Proof.
  destruct idx as [i|]; simpl.
  - unfold py_insert. set (len := Z.of_nat (List.length l)).
    set (j := if i <? 0 then Z.max 0 (i + len) else Z.min i len).
    exists (firstn (Z.to_nat j) l), (skipn (Z.to_nat j) l).
    rewrite firstn_skipn. repeat split; auto.
    + discriminate.
    + intros k E H. injection E as <-. rewrite firstn_length. unfold j.
      destruct (Z.ltb_spec i 0); lia.
    + intros k E H. injection E as <-. rewrite skipn_length. unfold j.
      destruct (Z.ltb_spec i 0); lia.
    + intros k E H. injection E as <-. apply skipn_all2. unfold j.
      destruct (Z.ltb_spec i 0); lia.
    + intros k E H. injection E as <-. unfold j.
      destruct (Z.ltb_spec i 0); [|lia]. replace (Z.max 0 (i + len)) with 0 by lia. reflexivity.
  - exists l, []. rewrite app_nil_r. repeat split; auto; discriminate.
Qed.

Lemma place_at_In {A} idx (x y : A) l : In y (place_at idx x l) <-> y = x \/ In y l.
Proof.
  destruct (place_at_app idx x l) as (l1 & l2 & -> & ->).
  rewrite !in_app_iff. simpl. intuition congruence.
Qed.

Lemma place_at_NoDup {A} idx (x : A) l : ~ In x l -> NoDup l -> NoDup (place_at idx x l).
Proof.
  destruct (place_at_app idx x l) as (l1 & l2 & -> & ->). intros N ND.
  apply (Permutation_NoDup (l := x :: l1 ++ l2)); [apply Permutation_middle|]. constructor; auto.
Qed.

Lemma place_at_Forall2 {A B} (P : A -> B -> Prop) idx x y l l' :
  P x y -> Forall2 P l l' -> Forall2 P (place_at idx x l) (place_at idx y l').
Proof.
  intros H F. assert (List.length l = List.length l') as L by (eapply Forall2_length; eauto). destruct idx as [i|]; simpl.
  - unfold py_insert. rewrite L. apply Forall2_app.
    + clear L. revert F. generalize (Z.to_nat (if i <? 0 then Z.max 0 (i + Z.of_nat (List.length l')) else Z.min i (Z.of_nat (List.length l')))).
      intros n F. revert n. induction F as [|a b l l' Hab F IH]; intros [|n]; simpl; constructor; auto.
    + constructor; auto. clear L. revert F.
      generalize (Z.to_nat (if i <? 0 then Z.max 0 (i + Z.of_nat (List.length l')) else Z.min i (Z.of_nat (List.length l')))).
      intros n F. revert n. induction F as [|a b l l' Hab F IH]; intros [|n]; simpl; auto.
  - apply Forall2_app; auto.
Qed.

(** ** The invariant *)

(** The chain of parents, [n] included. *)
Inductive up (w : world) : nat -> list nat -> Prop :=
| up_top n x : node_at w n = Some x -> t_parent x = None -> up w n [n]
| up_step n x p l : node_at w n = Some x -> t_parent x = Some p -> up w p l -> up w n (n :: l).

Record wf (w : world) : Prop := mkWf {
  wf_owner : forall n x, node_at w n = Some x -> exists g, game_at w (t_owner x) = Some g;
  wf_root : forall n x, node_at w n = Some x -> t_parent x = None ->
    exists g, game_at w (t_owner x) = Some g /\ g_root g = n;
  wf_game : forall i g, game_at w i = Some g ->
    exists x, node_at w (g_root g) = Some x /\ t_parent x = None /\ t_owner x = i;
  wf_parent : forall n x p, node_at w n = Some x -> t_parent x = Some p ->
    exists y, node_at w p = Some y /\ t_owner y = t_owner x;
  wf_kids : forall p y c, node_at w p = Some y -> In c (t_kids y) ->
    exists x, node_at w c = Some x /\ t_parent x = Some p;
  wf_nodup : forall p y, node_at w p = Some y -> NoDup (t_kids y);
  wf_up : forall n x, node_at w n = Some x -> exists l, up w n l
}.

Lemma up_head w n l : up w n l -> exists l', l = n :: l'.
Proof. intros U. inversion U; subst; eauto. Qed.

Lemma up_fun w n l l' : up w n l -> up w n l' -> l = l'.
Proof.
  intros U. revert l'. induction U as [n x E P|n x p l E P U IH]; intros l' U'.
  - inversion U' as [? x' E' P'|? x' p' l0 E' P' U0]; subst; congruence.
  - inversion U' as [? x' E' P'|? x' p' l0 E' P' U0]; subst; [congruence|].
    assert (p' = p) by congruence. subst. f_equal. auto.
Qed.

Lemma up_suffix w n l m : up w n l -> In m l -> exists l1 l2, l = l1 ++ l2 /\ up w m l2.
Proof.
  intros U. revert m. induction U as [n x E P|n x p l E P U IH]; intros m H.
  - destruct H as [<-|[]]. exists [], [n]. split; auto. econstructor; eauto.
  - destruct H as [<-|H].
    + exists [], (n :: l). split; auto. eapply up_step; eauto.
    + destruct (IH m H) as (l1 & l2 & -> & U2). exists (n :: l1), l2. auto.
Qed.

Lemma up_nodup w n l : up w n l -> NoDup l.
Proof.
  intros U. induction U as [n x E P|n x p l E P U IH]; [repeat constructor; auto|].
  constructor; auto. intros H. destruct (up_suffix w p l n U H) as (l1 & l2 & E2 & U2).
  assert (up w n (n :: l)) as U3 by (eapply up_step; eauto).
  pose proof (up_fun _ _ _ _ U2 U3) as E3. rewrite E3 in E2.
  apply (f_equal (@List.length nat)) in E2. rewrite app_length in E2. simpl in E2. lia.
Qed.

Lemma up_bound w n l : up w n l -> Forall (fun m => (m < List.length (w_nodes w))%nat) l.
Proof.
  intros U. induction U as [n x E P|n x p l E P U IH]; constructor; auto; eapply node_at_lt; eauto.
Qed.

Lemma up_length w n l : up w n l -> (List.length l <= List.length (w_nodes w))%nat.
Proof.
  intros U. pose proof (up_nodup _ _ _ U) as ND. pose proof (up_bound _ _ _ U) as B.
  rewrite <- (seq_length (List.length (w_nodes w)) 0).
  apply NoDup_incl_length; auto. intros m H. apply in_seq.
  rewrite Forall_forall in B. specialize (B m H). lia.
Qed.

Lemma above_iff w n m l : up w m l -> (above w n m <-> In n l).
Proof.
  intros U. split.
  - intros A. revert l U. induction A as [|m p [x [E P]] A IH]; intros l U.
    + destruct (up_head _ _ _ U) as [l' ->]. left. reflexivity.
    + inversion U as [? x' E' P'|? x' p' l0 E' P' U0]; subst; [congruence|].
      assert (p' = p) by congruence. subst. right. auto.
  - intros H. induction U as [m x E P|m x p l E P U IH].
    + destruct H as [<-|[]]. constructor.
    + destruct H as [<-|H]; [constructor|]. eapply above_up; [exists x; split; eauto|]. auto.
Qed.

Lemma walk_meets_ok w n l self fuel : up w n l -> (List.length l <= S fuel)%nat ->
  walk_meets fuel w n self = Ok (existsb (Nat.eqb self) l).
Proof.
  intros U. revert fuel. induction U as [n x E P|n x p l E P U IH]; intros fuel L.
  - destruct fuel; cbn [walk_meets existsb]; rewrite E, P, (Nat.eqb_sym self n);
      destruct (Nat.eqb n self); reflexivity.
  - destruct (up_head _ _ _ U) as [l' El]. destruct fuel as [|fuel]; [subst l; simpl in L; lia|].
    cbn [walk_meets existsb]. rewrite E, P, (Nat.eqb_sym self n).
    destruct (Nat.eqb n self); [reflexivity|]. simpl. apply IH. simpl in L. lia.
Qed.

Lemma existsb_eqb_In n l : existsb (Nat.eqb n) l = true <-> In n l.
Proof.
  rewrite existsb_exists. split.
  - intros (y & H & E). apply Nat.eqb_eq in E. subst. auto.
  - intros H. exists n. split; auto. apply Nat.eqb_refl.
Qed.

(** ** Reading trees *)

Lemma rose_ind2 (P : rose -> Prop) :
  (forall n ks, Forall P ks -> P (R n ks)) -> forall t, P t.
Proof.
  intros H. fix IH 1. intros [n ks]. apply H. induction ks as [|k ks IHks]; constructor; auto.
Qed.

Lemma tree_of_label w n t : tree_of w n t -> label t = n.
Proof. intros H. inversion H; subst. reflexivity. Qed.

Lemma tree_of_ind2 w (P : nat -> rose -> Prop) :
  (forall n x ts, node_at w n = Some x -> Forall2 (tree_of w) (t_kids x) ts ->
     Forall2 P (t_kids x) ts -> P n (R n ts)) ->
  forall n t, tree_of w n t -> P n t.
Proof.
  intros H n t. revert n. induction t as [m ks IH] using rose_ind2. intros n T.
  inversion T as [n' x ts E F]; subst. eapply H; eauto.
  clear E H T. revert IH. induction F as [|a b l l' Hab F IHF]; intros IH; constructor.
  - inversion IH; subst. auto.
  - inversion IH; subst. auto.
Qed.

Lemma tree_of_fun w n t t' : tree_of w n t -> tree_of w n t' -> t = t'.
Proof.
  intros T. revert t'. pattern n, t. revert n t T. apply tree_of_ind2.
  intros n x ts E F IH t' T'. inversion T' as [n' x' ts' E' F']; subst.
  rewrite E in E'. injection E' as <-. f_equal.
  clear E F T'. revert ts' F'. induction IH as [|a b l l' Hab _ IHl]; intros ts' F'; inversion F'; subst; auto.
  f_equal; auto.
Qed.

(** Every node of a tree reaches the top of the tree through its parents. *)
Lemma tree_above w n t : wf w -> tree_of w n t -> forall m, In m (labels t) -> above w n m.
Proof.
  intros W T. pattern n, t. revert n t T. apply tree_of_ind2.
  intros n x ts E F IH m H. simpl in H. destruct H as [<-|H]; [constructor|].
  apply in_flat_map in H. destruct H as (t & Ht & Hm).
  assert (exists c, In c (t_kids x) /\ (forall m, In m (labels t) -> above w c m)) as (c & Hc & A).
  { clear -IH Ht. induction IH as [|a b l l' Hab _ IHl]; [destruct Ht|].
    destruct Ht as [<-|Ht]; [exists a; split; [left; auto|auto]|].
    destruct (IHl Ht) as (c & ? & ?). exists c. split; [right; auto|auto]. }
  specialize (A m Hm). destruct (wf_kids _ W _ _ _ E Hc) as (y & Ey & Py).
  clear -A Ey Py. induction A as [|m p Pm A IH].
  - eapply above_up; [exists y; eauto|constructor].
  - eapply above_up; eauto.
Qed.

Lemma tree_exists_member w n x : node_at w n = Some x -> forall c ts, In c (t_kids x) ->
  Forall2 (tree_of w) (t_kids x) ts -> exists t, In t ts /\ tree_of w c t.
Proof.
  intros _ c ts H F. induction F as [|a b l l' Hab _ IHl]; [destruct H|].
  destruct H as [<-|H]; [exists b; split; [left; auto|auto]|].
  destruct (IHl H) as (t & ? & ?). exists t. split; [right; auto|auto].
Qed.

(** Every node has a finite tree below it. *)
Lemma tree_exists w n x : wf w -> node_at w n = Some x -> exists t, tree_of w n t.
Proof.
  intros W. set (N := List.length (w_nodes w)).
  assert (forall k n x l, node_at w n = Some x -> up w n l -> (N - List.length l <= k)%nat ->
            exists t, tree_of w n t) as G.
  { induction k as [|k IH]; intros n0 x0 l E U L.
    - assert (t_kids x0 = []) as K.
      { destruct (t_kids x0) as [|c r] eqn:K; auto. exfalso.
        destruct (wf_kids _ W n0 x0 c E) as (y & Ey & Py); [rewrite K; left; auto|].
        assert (up w c (c :: l)) as U2 by (eapply up_step; eauto).
        pose proof (up_length _ _ _ U2) as L2. simpl in L2. fold N in L2. lia. }
      exists (R n0 []). econstructor; eauto. rewrite K. constructor.
    - assert (exists ts, Forall2 (tree_of w) (t_kids x0) ts) as (ts & F).
      { assert (forall c, In c (t_kids x0) -> exists t, tree_of w c t) as H.
        { intros c Hc. destruct (wf_kids _ W _ _ _ E Hc) as (y & Ey & Py).
          assert (up w c (c :: l)) as U2 by (eapply up_step; eauto).
          apply (IH c y (c :: l)); auto. simpl. lia. }
        revert H. generalize (t_kids x0). induction l0 as [|c r IHr]; intros H; [exists []; constructor|].
        destruct (H c (or_introl eq_refl)) as (t & T).
        destruct IHr as (ts & F); [intros; apply H; right; auto|].
        exists (t :: ts). constructor; auto. }
      exists (R n0 ts). econstructor; eauto. }
  intros E. destruct (wf_up _ W _ _ E) as (l & U). eapply G; eauto.
Qed.

Lemma suffix_same_len {A} (l1 l2 a b : list A) :
  l1 ++ a = l2 ++ b -> List.length a = List.length b -> a = b.
Proof.
  revert l2. induction l1 as [|x l1 IH]; intros [|y l2] E L; simpl in *; auto.
  - subst. simpl in L. rewrite app_length in L. lia.
  - subst. simpl in L. rewrite app_length in L. lia.
  - injection E as _ E. eauto.
Qed.

(** Different children have disjoint trees. *)
Lemma siblings_disjoint w p c d m : wf w ->
  parent_is w c (Some p) -> parent_is w d (Some p) -> above w c m -> above w d m -> c = d.
Proof.
  intros W (x & Ex & Px) (y & Ey & Py) A B.
  assert (exists l, up w m l) as (l & U).
  { inversion A; subst.
    - eapply wf_up; eauto.
    - destruct H as (z & Ez & _). eapply wf_up; eauto. }
  apply (above_iff w c m l U) in A. apply (above_iff w d m l U) in B.
  destruct (up_suffix _ _ _ _ U A) as (l1 & l2 & E1 & U1).
  destruct (up_suffix _ _ _ _ U B) as (l3 & l4 & E2 & U2).
  inversion U1 as [? x' E' P'|? x' p' q1 E' P' V1]; subst; [congruence|].
  inversion U2 as [? x'' E'' P''|? x'' p'' q2 E'' P'' V2]; subst; [congruence|].
  assert (p' = p) by congruence. assert (p'' = p) by congruence. subst.
  pose proof (up_fun _ _ _ _ V1 V2) as ->.
  apply suffix_same_len in E2; [|reflexivity]. congruence.
Qed.

Lemma not_above_parent w p c : wf w -> parent_is w c (Some p) -> ~ above w c p.
Proof.
  intros W (x & Ex & Px) A. destruct (wf_up _ W _ _ Ex) as (l & U).
  pose proof (up_nodup _ _ _ U) as ND.
  inversion U as [? x' E' P'|? x' p' q E' P' V]; subst; [congruence|].
  assert (p' = p) by congruence. subst. apply (above_iff w c p q V) in A.
  inversion ND; subst. auto.
Qed.

Lemma labels_nodup w n t : wf w -> tree_of w n t -> NoDup (labels t).
Proof.
  intros W T. pattern n, t. revert n t T. apply tree_of_ind2.
  intros n x ts E F IH. simpl.
  assert (forall c, In c (t_kids x) -> parent_is w c (Some n)) as PK.
  { intros c Hc. destruct (wf_kids _ W _ _ _ E Hc) as (y & Ey & Py). exists y; auto. }
  constructor.
  - intros H. apply in_flat_map in H. destruct H as (t & Ht & Hm).
    assert (exists c, In c (t_kids x) /\ tree_of w c t) as (c & Hc & T).
    { clear -F Ht. induction F as [|a b l l' Hab _ IHl]; [destruct Ht|].
      destruct Ht as [<-|Ht]; [exists a; split; [left; auto|auto]|].
      destruct (IHl Ht) as (c & ? & ?). exists c. split; [right; auto|auto]. }
    apply (not_above_parent w n c W (PK c Hc)). apply (tree_above w c t W T). auto.
  - pose proof (wf_nodup _ W _ _ E) as ND. clear E.
    induction F as [|a b l l' Hab F IHF]; simpl; [constructor|].
    inversion IH as [|? ? ? ? N1 N2]; subst. inversion ND as [|? ? N3 N4]; subst.
    assert (forall (l1 l2 : list nat), NoDup l1 -> NoDup l2 -> (forall z, In z l1 -> ~ In z l2) -> NoDup (l1 ++ l2)) as NA.
    { clear. induction l1 as [|z l1 IHl]; simpl; intros l2 A B D; auto.
      inversion A; subst. constructor; [|apply IHl; auto; intros; apply D; auto].
      rewrite in_app_iff. intros [?|?]; [auto|]. eapply D; eauto. }
    apply NA; auto.
    + apply IHF; auto. intros c Hc. apply PK. right. auto.
    + intros z Hz H. apply in_flat_map in H. destruct H as (t & Ht & Hm).
      assert (exists c, In c l /\ tree_of w c t) as (c & Hc & T).
      { clear -F Ht. induction F as [|a b l l' Hab _ IHl]; [destruct Ht|].
        destruct Ht as [<-|Ht]; [exists a; split; [left; auto|auto]|].
        destruct (IHl Ht) as (c & ? & ?). exists c. split; [right; auto|auto]. }
      assert (a = c).
      { eapply (siblings_disjoint w n a c z W); [apply PK; left; auto|apply PK; right; auto| |].
        - eapply tree_above; eauto.
        - eapply tree_above; eauto. }
      subst. auto.
Qed.

(** ** Changes that keep the links *)

Definition links (x : tnode) : nat * option nat * list nat := (t_owner x, t_parent x, t_kids x).

Definition same_links (w w' : world) : Prop :=
  map links (w_nodes w') = map links (w_nodes w) /\ map g_root (w_games w') = map g_root (w_games w).

Lemma map_nth_transfer {A B} (f : A -> B) l l' n x :
  map f l' = map f l -> nth_error l n = Some x -> exists x', nth_error l' n = Some x' /\ f x' = f x.
Proof.
  intros E H. pose proof (map_nth_error f n l H) as H1. rewrite <- E in H1.
  rewrite nth_error_map in H1. destruct (nth_error l' n) as [x'|]; [|discriminate].
  simpl in H1. injection H1 as H1. eauto.
Qed.

Lemma same_links_node w w' n x : same_links w w' -> node_at w n = Some x ->
  exists x', node_at w' n = Some x' /\ t_owner x' = t_owner x /\ t_parent x' = t_parent x /\ t_kids x' = t_kids x.
Proof.
  intros [L _] E. destruct (map_nth_transfer _ _ _ _ _ L E) as (x' & E' & F).
  exists x'. unfold links in F. injection F as F1 F2 F3. auto.
Qed.

Lemma same_links_game w w' i g : same_links w w' -> game_at w i = Some g ->
  exists g', game_at w' i = Some g' /\ g_root g' = g_root g.
Proof. intros [_ L] E. apply (map_nth_transfer _ _ _ _ _ L E). Qed.

Lemma same_links_sym w w' : same_links w w' -> same_links w' w.
Proof. intros [A B]. split; auto. Qed.

Lemma same_links_refl w : same_links w w.
Proof. split; auto. Qed.

Lemma same_links_trans w w' w'' : same_links w w' -> same_links w' w'' -> same_links w w''.
Proof. intros [A B] [C D]. split; congruence. Qed.

Lemma same_links_up w w' n l : same_links w w' -> up w n l -> up w' n l.
Proof.
  intros S U. induction U as [n x E P|n x p l E P U IH];
    destruct (same_links_node _ _ _ _ S E) as (x' & E' & _ & P' & _).
  - eapply up_top; eauto. congruence.
  - eapply up_step; eauto. congruence.
Qed.

Lemma same_links_wf w w' : same_links w w' -> wf w -> wf w'.
Proof.
  intros S W. pose proof (same_links_sym _ _ S) as S'. constructor.
  - intros n x E. destruct (same_links_node _ _ _ _ S' E) as (y & Ey & O & _).
    destruct (wf_owner _ W _ _ Ey) as (g & G). destruct (same_links_game _ _ _ _ S G) as (g' & G' & _).
    exists g'. congruence.
  - intros n x E P. destruct (same_links_node _ _ _ _ S' E) as (y & Ey & O & Py & _).
    destruct (wf_root _ W _ _ Ey) as (g & G & R); [congruence|].
    destruct (same_links_game _ _ _ _ S G) as (g' & G' & R'). exists g'. split; congruence.
  - intros i g G. destruct (same_links_game _ _ _ _ S' G) as (g' & G' & R').
    destruct (wf_game _ W _ _ G') as (x & Ex & Px & Ox).
    destruct (same_links_node _ _ _ _ S Ex) as (y & Ey & O & P & _).
    exists y. split; [congruence|]. split; congruence.
  - intros n x p E P. destruct (same_links_node _ _ _ _ S' E) as (y & Ey & O & Py & _).
    destruct (wf_parent _ W _ _ p Ey) as (z & Ez & Oz); [congruence|].
    destruct (same_links_node _ _ _ _ S Ez) as (z' & Ez' & Oz' & _). exists z'. split; auto. congruence.
  - intros p y c E H. destruct (same_links_node _ _ _ _ S' E) as (z & Ez & _ & _ & K).
    destruct (wf_kids _ W _ _ c Ez) as (x & Ex & Px); [congruence|].
    destruct (same_links_node _ _ _ _ S Ex) as (x' & Ex' & _ & Px' & _). exists x'. split; auto. congruence.
  - intros p y E. destruct (same_links_node _ _ _ _ S' E) as (z & Ez & _ & _ & K).
    rewrite <- K. eapply wf_nodup; eauto.
  - intros n x E. destruct (same_links_node _ _ _ _ S' E) as (y & Ey & _).
    destruct (wf_up _ W _ _ Ey) as (l & U). exists l. eapply same_links_up; eauto.
Qed.

Lemma same_links_tree w w' n t : same_links w w' -> tree_of w n t -> tree_of w' n t.
Proof.
  intros S T. pattern n, t. revert n t T. apply tree_of_ind2. intros n x ts E F IH.
  destruct (same_links_node _ _ _ _ S E) as (x' & E' & _ & _ & K). econstructor; eauto. rewrite K. auto.
Qed.

Lemma map_update {A B} (f : A -> B) n x y l :
  nth_error l n = Some y -> f x = f y -> map f (update n x l) = map f l.
Proof.
  revert n. induction l as [|z l IH]; intros [|n]; simpl; intros E F; try discriminate.
  - injection E as ->. rewrite F. reflexivity.
  - rewrite IH; auto.
Qed.

Lemma put_props_links w n x m : node_at w n = Some x -> same_links w (put_props w n x m).
Proof.
  intros E. split; [|reflexivity]. unfold put_props, set_node. simpl.
  apply map_update with (y := x); auto.
Qed.

(** ** Frames: what the parent pointers say *)

Definition keeps_parents (w w' : world) : Prop :=
  forall n x, node_at w n = Some x -> exists x', node_at w' n = Some x' /\ t_parent x' = t_parent x.

Lemma keeps_up w w' n l : keeps_parents w w' -> up w n l -> up w' n l.
Proof.
  intros S U. induction U as [n x E P|n x p l E P U IH]; destruct (S _ _ E) as (x' & E' & P').
  - eapply up_top; eauto. congruence.
  - eapply up_step; eauto. congruence.
Qed.

(** ** new_child *)

Lemma nth_snoc {A} (l : list A) x n :
  nth_error (l ++ [x]) n = if Nat.eqb n (List.length l) then Some x else nth_error l n.
Proof.
  destruct (Nat.eqb_spec n (List.length l)) as [->|N].
  - rewrite nth_error_app2, Nat.sub_diag by lia. reflexivity.
  - destruct (le_lt_dec (List.length l) n) as [L|L].
    + transitivity (@None A); [|symmetry]; apply nth_error_None; [rewrite app_length; simpl; lia|lia].
    + apply nth_error_app1; auto.
Qed.

Section NewNode.
  Context (w : world) (p : nat) (index : option Z) (props : pmap) (x : tnode) (E : node_at w p = Some x).
  Let c := List.length (w_nodes w).
  Let w' := new_node w p index props.

  Lemma new_node_at m : node_at w' m =
    if Nat.eqb m p then Some (with_kids (place_at index c (t_kids x)) x)
    else if Nat.eqb m c then Some (mkT (t_owner x) (Some p) [] props)
    else node_at w m.
  Proof.
    unfold w', new_node. rewrite E. pose proof (node_at_lt _ _ _ E) as L.
    rewrite node_at_set. rewrite (Nat.eqb_sym m p). destruct (Nat.eqb_spec p m) as [->|N].
    - simpl. rewrite app_length. simpl.
      destruct (Nat.ltb_spec m (List.length (w_nodes w) + 1)); [reflexivity|lia].
    - unfold node_at. simpl. rewrite nth_snoc. reflexivity.
  Qed.

  Lemma new_node_games : w_games w' = w_games w.
  Proof. unfold w', new_node. rewrite E. reflexivity. Qed.

  Lemma new_node_length : List.length (w_nodes w') = S c.
  Proof. unfold w', new_node. rewrite E. simpl. rewrite update_len, app_length. simpl. fold c. lia. Qed.

  Lemma new_node_keeps : keeps_parents w w'.
  Proof.
    intros n y En. rewrite new_node_at. pose proof (node_at_lt _ _ _ En) as L.
    destruct (Nat.eqb_spec n p) as [->|N].
    - rewrite E in En. injection En as <-. eexists. split; [reflexivity|]. reflexivity.
    - destruct (Nat.eqb_spec n c) as [->|N2]; [unfold c in L; lia|]. eauto.
  Qed.

  Lemma new_node_fresh : wf w -> forall q y, node_at w q = Some y -> ~ In c (t_kids y).
  Proof.
    intros W q y Eq H. destruct (wf_kids _ W _ _ _ Eq H) as (z & Ez & _).
    apply node_at_lt in Ez. unfold c in Ez. lia.
  Qed.

  Lemma new_node_wf : wf w -> wf w'.
  Proof.
    intros W. pose proof (node_at_lt _ _ _ E) as Lp.
    assert (p <> c) as Npc by (unfold c; lia).
    assert (forall n y, node_at w n = Some y -> exists y', node_at w' n = Some y' /\ t_owner y' = t_owner y /\ t_parent y' = t_parent y) as OLD.
    { intros n y En. rewrite new_node_at. pose proof (node_at_lt _ _ _ En) as L.
      destruct (Nat.eqb_spec n p) as [->|N].
      - rewrite E in En. injection En as <-. eexists. split; [reflexivity|]. split; reflexivity.
      - destruct (Nat.eqb_spec n c) as [->|N2]; [unfold c in L; lia|]. eauto. }
    assert (forall i, game_at w' i = game_at w i) as G.
    { intros i. unfold game_at. rewrite new_node_games. reflexivity. }
    constructor.
    - intros n y En. rewrite new_node_at in En. rewrite G.
      destruct (Nat.eqb_spec n p) as [->|N]; [injection En as <-; apply (wf_owner _ W _ _ E)|].
      destruct (Nat.eqb_spec n c) as [->|N2]; [injection En as <-; apply (wf_owner _ W _ _ E)|].
      eapply wf_owner; eauto.
    - intros n y En Pn. rewrite new_node_at in En. rewrite G.
      destruct (Nat.eqb_spec n p) as [->|N]; [injection En as <-; apply (wf_root _ W _ _ E); auto|].
      destruct (Nat.eqb_spec n c) as [->|N2]; [injection En as <-; discriminate|].
      eapply wf_root; eauto.
    - intros i g Gi. rewrite G in Gi. destruct (wf_game _ W _ _ Gi) as (y & Ey & Py & Oy).
      destruct (OLD _ _ Ey) as (y' & Ey' & Oy' & Py'). exists y'. split; auto. split; congruence.
    - intros n y q En Pn. rewrite new_node_at in En.
      destruct (Nat.eqb_spec n p) as [->|N].
      + injection En as <-. simpl in Pn. destruct (wf_parent _ W _ _ _ E Pn) as (z & Ez & Oz).
        destruct (OLD _ _ Ez) as (z' & Ez' & Oz' & _). exists z'. split; auto. simpl. congruence.
      + destruct (Nat.eqb_spec n c) as [->|N2].
        * injection En as <-. simpl in Pn. injection Pn as <-.
          destruct (OLD _ _ E) as (z' & Ez' & Oz' & _). exists z'. split; auto.
        * destruct (wf_parent _ W _ _ _ En Pn) as (z & Ez & Oz).
          destruct (OLD _ _ Ez) as (z' & Ez' & Oz' & _). exists z'. split; auto. congruence.
    - intros q y d Eq H. rewrite new_node_at in Eq.
      destruct (Nat.eqb_spec q p) as [->|N].
      + injection Eq as <-. simpl in H. apply place_at_In in H. destruct H as [->|H].
        * exists (mkT (t_owner x) (Some p) [] props). split; auto. rewrite new_node_at.
          destruct (Nat.eqb_spec c p); [congruence|]. rewrite Nat.eqb_refl. reflexivity.
        * destruct (wf_kids _ W _ _ _ E H) as (z & Ez & Pz).
          destruct (OLD _ _ Ez) as (z' & Ez' & _ & Pz'). exists z'. split; auto. congruence.
      + destruct (Nat.eqb_spec q c) as [->|N2]; [injection Eq as <-; destruct H|].
        destruct (wf_kids _ W _ _ _ Eq H) as (z & Ez & Pz).
        destruct (OLD _ _ Ez) as (z' & Ez' & _ & Pz'). exists z'. split; auto. congruence.
    - intros q y Eq. rewrite new_node_at in Eq.
      destruct (Nat.eqb_spec q p) as [->|N].
      + injection Eq as <-. simpl. apply place_at_NoDup; [|eapply wf_nodup; eauto].
        eapply new_node_fresh; eauto.
      + destruct (Nat.eqb_spec q c) as [->|N2]; [injection Eq as <-; constructor|].
        eapply wf_nodup; eauto.
    - intros n y En. rewrite new_node_at in En.
      destruct (wf_up _ W _ _ E) as (lp & Up). pose proof (keeps_up _ _ _ _ new_node_keeps Up) as Up'.
      destruct (Nat.eqb_spec n p) as [->|N]; [eauto|].
      destruct (Nat.eqb_spec n c) as [->|N2].
      + exists (c :: lp). eapply up_step; [| |exact Up'].
        * rewrite new_node_at. destruct (Nat.eqb_spec c p); [congruence|]. rewrite Nat.eqb_refl. reflexivity.
        * reflexivity.
      + destruct (wf_up _ W _ _ En) as (l & U). exists l. eapply keeps_up; eauto. apply new_node_keeps.
  Qed.

  Lemma new_node_leaf : node_at w' c = Some (mkT (t_owner x) (Some p) [] props).
  Proof.
    pose proof (node_at_lt _ _ _ E) as Lp. rewrite new_node_at.
    destruct (Nat.eqb_spec c p); [unfold c in *; lia|]. rewrite Nat.eqb_refl. reflexivity.
  Qed.

  Lemma new_node_tree n t : tree_of w n t ->
    exists t', inserted p index (R c []) t t' /\ tree_of w' n t'.
  Proof.
    intros T. pattern n, t. revert n t T. apply tree_of_ind2. intros n y ts En F IH.
    assert (exists ts', Forall2 (inserted p index (R c [])) ts ts' /\ Forall2 (tree_of w') (t_kids y) ts') as (ts' & I & F').
    { clear -IH. induction IH as [|a b l l' (t' & I & T) _ IHl]; [exists []; split; constructor|].
      destruct IHl as (ts' & ? & ?). exists (t' :: ts'). split; constructor; auto. }
    destruct (Nat.eq_dec n p) as [->|N].
    - exists (R p (place_at index (R c []) ts')). split.
      + eapply ins_here; eauto. apply place_at_insert.
      + rewrite E in En. injection En as <-. eapply tree_of_intro.
        * rewrite new_node_at, Nat.eqb_refl. reflexivity.
        * simpl. apply place_at_Forall2; auto. eapply tree_of_intro; [apply new_node_leaf|]. constructor.
    - exists (R n ts'). split; [apply ins_other; auto|]. eapply tree_of_intro; [|exact F'].
      rewrite new_node_at. destruct (Nat.eqb_spec n p); [congruence|].
      pose proof (node_at_lt _ _ _ En). destruct (Nat.eqb_spec n c); [unfold c in *; lia|]. exact En.
  Qed.
End NewNode.

(** ** Removing a node from its parent's child list *)

Definition drop (n : nat) (l : list nat) : list nat := filter (fun y => negb (Nat.eqb y n)) l.

Lemma drop_In n l m : In m (drop n l) <-> In m l /\ m <> n.
Proof.
  unfold drop. rewrite filter_In. destruct (Nat.eqb_spec m n); simpl; intuition congruence.
Qed.

Section Unlink.
  Context (w : world) (n p : nat) (x y : tnode) (W : wf w).
  Context (En : node_at w n = Some x) (Pn : t_parent x = Some p).
  Context (Ep : node_at w p = Some y).
  Let w' := set_node w p (with_kids (drop n (t_kids y)) y).

  Lemma unlink_at m : node_at w' m =
    if Nat.eqb m p then Some (with_kids (drop n (t_kids y)) y) else node_at w m.
  Proof.
    unfold w'. rewrite node_at_set, (Nat.eqb_sym m p). destruct (Nat.eqb_spec p m) as [<-|N]; auto.
    pose proof (node_at_lt _ _ _ Ep) as L. apply Nat.ltb_lt in L. rewrite L. reflexivity.
  Qed.

  (** In terms of the new world, every child list is the old one without [n]. *)
  Lemma unlink_node m z : node_at w m = Some z ->
    exists z', node_at w' m = Some z' /\ t_owner z' = t_owner z /\ t_parent z' = t_parent z /\
      t_props z' = t_props z /\ t_kids z' = drop n (t_kids z).
  Proof.
    intros Em. rewrite unlink_at. destruct (Nat.eqb_spec m p) as [->|N].
    - rewrite Ep in Em. injection Em as <-. eexists. split; [reflexivity|]. repeat split.
    - exists z. repeat split; auto. unfold drop.
      assert (~ In n (t_kids z)) as NI.
      { intros H. destruct (wf_kids _ W _ _ _ Em H) as (x' & Ex' & Px'). congruence. }
      clear -NI. revert NI. generalize (t_kids z) as l. induction l as [|a l IH]; simpl; intros NI; auto.
      destruct (Nat.eqb_spec a n); simpl; [exfalso; apply NI; auto|]. rewrite <- IH; auto.
  Qed.

  Lemma unlink_node_inv m z' : node_at w' m = Some z' ->
    exists z, node_at w m = Some z /\ t_owner z' = t_owner z /\ t_parent z' = t_parent z /\
      t_props z' = t_props z /\ t_kids z' = drop n (t_kids z).
  Proof.
    intros Em. assert (exists z, node_at w m = Some z) as (z & Ez).
    { rewrite unlink_at in Em. destruct (Nat.eqb_spec m p) as [->|N]; eauto. }
    destruct (unlink_node _ _ Ez) as (z2 & E2 & ?). rewrite Em in E2. injection E2 as <-. eauto.
  Qed.

  Lemma unlink_keeps : keeps_parents w w'.
  Proof. intros m z Em. destruct (unlink_node _ _ Em) as (z' & ? & _ & ? & _). eauto. Qed.

  Lemma unlink_wf : wf w'.
  Proof.
    assert (forall i, game_at w' i = game_at w i) as G by reflexivity.
    constructor.
    - intros m z' Em. destruct (unlink_node_inv _ _ Em) as (z & Ez & O & _). rewrite O, G. eapply wf_owner; eauto.
    - intros m z' Em Pm. destruct (unlink_node_inv _ _ Em) as (z & Ez & O & P & _). rewrite O, G.
      eapply wf_root; eauto. congruence.
    - intros i g Gi. rewrite G in Gi. destruct (wf_game _ W _ _ Gi) as (z & Ez & Pz & Oz).
      destruct (unlink_node _ _ Ez) as (z' & Ez' & O & P & _). exists z'. repeat split; congruence.
    - intros m z' q Em Pm. destruct (unlink_node_inv _ _ Em) as (z & Ez & O & P & _).
      destruct (wf_parent _ W _ _ q Ez) as (u & Eu & Ou); [congruence|].
      destruct (unlink_node _ _ Eu) as (u' & Eu' & O' & _). exists u'. split; auto. congruence.
    - intros q z' c Eq H. destruct (unlink_node_inv _ _ Eq) as (z & Ez & _ & _ & _ & K).
      rewrite K in H. apply drop_In in H. destruct H as [H _].
      destruct (wf_kids _ W _ _ _ Ez H) as (u & Eu & Pu).
      destruct (unlink_node _ _ Eu) as (u' & Eu' & _ & P' & _). exists u'. split; auto. congruence.
    - intros q z' Eq. destruct (unlink_node_inv _ _ Eq) as (z & Ez & _ & _ & _ & K).
      rewrite K. apply NoDup_filter. eapply wf_nodup; eauto.
    - intros m z' Em. destruct (unlink_node_inv _ _ Em) as (z & Ez & _).
      destruct (wf_up _ W _ _ Ez) as (l & U). exists l. eapply keeps_up; eauto. apply unlink_keeps.
  Qed.

  Lemma unlink_tree m t : tree_of w m t -> tree_of w' m (cut n t).
  Proof.
    intros T. pattern m, t. revert m t T. apply tree_of_ind2. intros m z ts Em F IH.
    destruct (unlink_node _ _ Em) as (z' & Ez' & _ & _ & _ & K).
    simpl. eapply tree_of_intro; eauto. rewrite K. unfold drop.
    clear -F IH. revert F. induction IH as [|a b l l' Hab _ IHl]; intros F; simpl; [constructor|].
    inversion F as [|? ? ? ? F1 F2]; subst. rewrite (tree_of_label _ _ _ F1).
    destruct (Nat.eqb_spec a n) as [->|N]; simpl; auto.
  Qed.
End Unlink.

(** ** Attaching a node under a new parent *)

Section Attach.
  (** [w] is the world in which [n] is in no child list. *)
  Context (w : world) (n np : nat) (index : option Z) (x y : tnode) (W : wf w).
  Context (En : node_at w n = Some x) (Enp : node_at w np = Some y).
  Context (Root : t_parent x <> None).
  Context (Free : forall q z, node_at w q = Some z -> ~ In n (t_kids z)).
  Context (Same : t_owner y = t_owner x).
  Context (NoLoop : ~ above w n np).
  Let w1 := set_node w n (with_parent np x).
  Let w' := set_node w1 np (with_kids (place_at index n (t_kids y)) y).

  Lemma attach_neq : n <> np.
  Proof. intros ->. apply NoLoop. constructor. Qed.

  Lemma attach_np : node_at w1 np = Some y.
  Proof. unfold w1. rewrite node_at_set_other; auto. apply attach_neq. Qed.

  Lemma attach_at m : node_at w' m =
    if Nat.eqb m np then Some (with_kids (place_at index n (t_kids y)) y)
    else if Nat.eqb m n then Some (with_parent np x) else node_at w m.
  Proof.
    unfold w'. destruct (Nat.eqb_spec m np) as [->|N].
    - eapply node_at_set_same. apply attach_np.
    - rewrite node_at_set_other by auto. unfold w1. destruct (Nat.eqb_spec m n) as [->|N2].
      + eapply node_at_set_same. eauto.
      + apply node_at_set_other. auto.
  Qed.

  Lemma attach_node m z : node_at w m = Some z ->
    exists z', node_at w' m = Some z' /\ t_owner z' = t_owner z /\ t_props z' = t_props z /\
      t_parent z' = (if Nat.eqb m n then Some np else t_parent z) /\
      t_kids z' = (if Nat.eqb m np then place_at index n (t_kids z) else t_kids z).
  Proof.
    intros Em. rewrite attach_at. destruct (Nat.eqb_spec m np) as [->|N].
    - rewrite Enp in Em. injection Em as <-. eexists. split; [reflexivity|].
      destruct (Nat.eqb_spec np n) as [E|_]; [exfalso; apply attach_neq; auto|]. repeat split.
    - destruct (Nat.eqb_spec m n) as [->|N2].
      + rewrite En in Em. injection Em as <-. eexists. split; [reflexivity|]. repeat split.
      + exists z. repeat split; auto.
  Qed.

  Lemma attach_node_inv m z' : node_at w' m = Some z' ->
    exists z, node_at w m = Some z /\ t_owner z' = t_owner z /\ t_props z' = t_props z /\
      t_parent z' = (if Nat.eqb m n then Some np else t_parent z) /\
      t_kids z' = (if Nat.eqb m np then place_at index n (t_kids z) else t_kids z).
  Proof.
    intros Em. assert (exists z, node_at w m = Some z) as (z & Ez).
    { rewrite attach_at in Em. destruct (Nat.eqb_spec m np) as [->|N]; [eauto|].
      destruct (Nat.eqb_spec m n) as [->|N2]; eauto. }
    destruct (attach_node _ _ Ez) as (z2 & E2 & ?). rewrite Em in E2. injection E2 as <-. eauto.
  Qed.

  (** The chain of a node that does not pass [n] is unchanged. *)
  Lemma attach_up_other m l : up w m l -> ~ In n l -> up w' m l.
  Proof.
    intros U. induction U as [m z E P|m z q l E P U IH]; intros NI;
      destruct (attach_node _ _ E) as (z' & E' & _ & _ & P' & _);
      (destruct (Nat.eqb_spec m n) as [->|N]; [exfalso; apply NI; left; auto|]).
    - eapply up_top; eauto. congruence.
    - apply up_step with (x := z') (p := q); [exact E'|congruence|]. apply IH. intros H. apply NI. right. auto.
  Qed.

  Lemma attach_up_n : exists l, up w' n l.
  Proof.
    destruct (wf_up _ W _ _ Enp) as (l & U). exists (n :: l).
    destruct (attach_node _ _ En) as (z' & E' & _ & _ & P' & _). rewrite Nat.eqb_refl in P'.
    eapply up_step; eauto. apply attach_up_other; auto.
    intros H. apply NoLoop. apply (above_iff w n np l U). auto.
  Qed.

  Lemma attach_up m l : up w m l -> exists l', up w' m l'.
  Proof.
    intros U. induction U as [m z E P|m z q l E P U [l' IH]];
      (destruct (Nat.eq_dec m n) as [->|N]; [apply attach_up_n|]);
      destruct (attach_node _ _ E) as (z' & E' & _ & _ & P' & _);
      (destruct (Nat.eqb_spec m n); [congruence|]).
    - eexists. eapply up_top; eauto. congruence.
    - eexists. eapply up_step; eauto. congruence.
  Qed.

  Lemma attach_wf : wf w'.
  Proof.
    assert (forall i, game_at w' i = game_at w i) as G by reflexivity.
    constructor.
    - intros m z' Em. destruct (attach_node_inv _ _ Em) as (z & Ez & O & _). rewrite O, G. eapply wf_owner; eauto.
    - intros m z' Em Pm. destruct (attach_node_inv _ _ Em) as (z & Ez & O & _ & P & _). rewrite O, G.
      destruct (Nat.eqb_spec m n); [congruence|]. eapply wf_root; eauto. congruence.
    - intros i g Gi. rewrite G in Gi. destruct (wf_game _ W _ _ Gi) as (z & Ez & Pz & Oz).
      destruct (attach_node _ _ Ez) as (z' & Ez' & O & _ & P & _).
      destruct (Nat.eqb_spec (g_root g) n) as [E|N].
      { exfalso. apply Root. rewrite E in Ez. congruence. }
      exists z'. repeat split; congruence.
    - intros m z' q Em Pm. destruct (attach_node_inv _ _ Em) as (z & Ez & O & _ & P & _).
      destruct (Nat.eqb_spec m n) as [->|N].
      + assert (q = np) by congruence. subst. destruct (attach_node _ _ Enp) as (u' & Eu' & O' & _).
        exists u'. split; auto. congruence.
      + destruct (wf_parent _ W _ _ q Ez) as (u & Eu & Ou); [congruence|].
        destruct (attach_node _ _ Eu) as (u' & Eu' & O' & _). exists u'. split; auto. congruence.
    - intros q z' c Eq H. destruct (attach_node_inv _ _ Eq) as (z & Ez & _ & _ & _ & K). rewrite K in H.
      assert (In c (t_kids z) \/ (c = n /\ q = np)) as [H1|[-> ->]].
      { destruct (Nat.eqb_spec q np) as [->|N]; auto. apply place_at_In in H. tauto. }
      + assert (c <> n) as Nc by (intros ->; eapply Free; eauto).
        destruct (wf_kids _ W _ _ _ Ez H1) as (u & Eu & Pu).
        destruct (attach_node _ _ Eu) as (u' & Eu' & _ & _ & P' & _).
        destruct (Nat.eqb_spec c n); [congruence|]. exists u'. split; auto. congruence.
      + destruct (attach_node _ _ En) as (u' & Eu' & _ & _ & P' & _). rewrite Nat.eqb_refl in P'. eauto.
    - intros q z' Eq. destruct (attach_node_inv _ _ Eq) as (z & Ez & _ & _ & _ & K). rewrite K.
      pose proof (wf_nodup _ W _ _ Ez) as ND. destruct (Nat.eqb q np); auto.
      apply place_at_NoDup; auto. eapply Free; eauto.
    - intros m z' Em. destruct (attach_node_inv _ _ Em) as (z & Ez & _).
      destruct (wf_up _ W _ _ Ez) as (l & U). eapply attach_up; eauto.
  Qed.

  (** The subtree that is moved does not change. *)
  Lemma attach_tree_same m t : tree_of w m t -> ~ In np (labels t) -> tree_of w' m t.
  Proof.
    intros T. pattern m, t. revert m t T. apply tree_of_ind2. intros m z ts Em F IH NI.
    simpl in NI. destruct (attach_node _ _ Em) as (z' & Ez' & _ & _ & _ & K).
    destruct (Nat.eqb_spec m np) as [->|N]; [exfalso; apply NI; auto|].
    eapply tree_of_intro; eauto. rewrite K.
    assert (forall t, In t ts -> ~ In np (labels t)) as NJ.
    { intros t Ht H. apply NI. right. apply in_flat_map. eauto. }
    clear -IH NJ. induction IH as [|a b l l' Hab _ IHl]; constructor.
    - apply Hab. apply NJ. left. auto.
    - apply IHl. intros t Ht. apply NJ. right. auto.
  Qed.

  Lemma attach_tree tn : tree_of w n tn -> forall m t, tree_of w m t ->
    exists t', inserted np index tn t t' /\ tree_of w' m t'.
  Proof.
    intros Tn. assert (tree_of w' n tn) as Tn'.
    { apply attach_tree_same; auto. intros H. apply NoLoop. eapply tree_above; eauto. }
    apply tree_of_ind2. intros m z ts Em F IH.
    assert (exists ts', Forall2 (inserted np index tn) ts ts' /\ Forall2 (tree_of w') (t_kids z) ts') as (ts' & I & F').
    { clear -IH. induction IH as [|a b l l' (t' & I & T) _ IHl]; [exists []; split; constructor|].
      destruct IHl as (ts' & ? & ?). exists (t' :: ts'). split; constructor; auto. }
    destruct (attach_node _ _ Em) as (z' & Ez' & _ & _ & _ & K).
    destruct (Nat.eqb_spec m np) as [->|N].
    - exists (R np (place_at index tn ts')). split; [eapply ins_here; eauto; apply place_at_insert|].
      eapply tree_of_intro; eauto. rewrite K. apply place_at_Forall2; auto.
    - exists (R m ts'). split; [apply ins_other; auto|]. eapply tree_of_intro; eauto. rewrite K. auto.
  Qed.
End Attach.
