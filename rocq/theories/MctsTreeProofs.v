(** Proofs about the MCTS tuner's tree and simulations (C41). *)
From Coq Require Import QArith Permutation.
From Verif Require Import Base MctsModel MctsSpec MctsCellProofs.
Open Scope Z_scope.

(** ** max *)
Lemma max_fold {A} (less : A -> A -> bool) l : forall x,
  exists l1 l2, let m := fold_left (fun m y => if less m y then y else m) l x in
    x :: l = l1 ++ m :: l2 /\
    (strict_order less -> (forall y, In y l1 -> less y m = true) /\ (forall y, In y l2 -> less m y = false)).
Proof.
  induction l as [|y l IH]; intros x; cbn [fold_left]; cbv zeta.
  - exists [], []. split; [reflexivity|]. intros _. split; intros ? [].
  - destruct (less x y) eqn:E.
    + destruct (IH y) as (l1 & l2 & E1 & H). cbv zeta in *. set (m := fold_left _ l y) in *. exists (x :: l1), l2. split; [cbn; congruence|].
      intros SO. destruct (H SO) as [H1 H2]. split; [|exact H2]. destruct SO as (I & As & Tr).
      intros z [Z|Z]; [subst z|auto]. destruct (less x m) eqn:E2; [reflexivity|exfalso].
      (* not x < m; not m < y (y is m, or is in l1) *)
      assert (less m y = false) as E3. { destruct l1 as [|z l1]; cbn in E1; injection E1 as Z1 Z2; [rewrite <- Z1; apply I|subst z; apply As, H1; left; reflexivity]. }
      rewrite (Tr x m y E2 E3) in E. discriminate.
    + destruct (IH x) as (l1 & l2 & E1 & H). cbv zeta in *. set (m := fold_left _ l x) in *. destruct l1 as [|z l1]; cbn in E1; injection E1 as Z1 Z2.
      * exists [], (y :: l2). split; [cbn; congruence|]. intros SO. destruct (H SO) as [H1 H2]. split; [intros ? []|].
        intros z [Z|Z]; [subst z; rewrite <- Z1; exact E|auto].
      * subst z. exists (x :: y :: l1), l2. split; [cbn; congruence|]. intros SO. destruct (H SO) as [H1 H2]. split; [|exact H2].
        intros z [Z|[Z|Z]]; [subst z; apply H1; left; reflexivity| |apply H1; right; exact Z]. subst z.
        destruct SO as (I & As & Tr). destruct (less y m) eqn:E2; [reflexivity|exfalso].
        pose proof (Tr x y m E E2) as E3. rewrite (H1 x (or_introl eq_refl)) in E3. discriminate.
Qed.

Lemma max_by_split {A} (less : A -> A -> bool) l m : max_by less l = Some m ->
  exists l1 l2, l = l1 ++ m :: l2 /\
    (strict_order less -> (forall y, In y l1 -> less y m = true) /\ (forall y, In y l2 -> less m y = false)).
Proof. destruct l as [|x l]; [discriminate|]. cbn. intros E. injection E as <-. apply max_fold. Qed.
Lemma max_by_in {A} (less : A -> A -> bool) l m : max_by less l = Some m -> In m l.
Proof. intros E. destruct (max_by_split _ _ _ E) as (l1 & l2 & -> & _). apply in_or_app. right. left. reflexivity. Qed.
Lemma max_by_some {A} (less : A -> A -> bool) l : l <> [] -> exists m, max_by less l = Some m.
Proof. destruct l; [congruence|]. cbn. eauto. Qed.
Lemma max_by_greatest {A} (less : A -> A -> bool) l m y : strict_order less -> max_by less l = Some m -> In y l -> less m y = false.
Proof.
  intros SO E I. destruct (max_by_split _ _ _ E) as (l1 & l2 & -> & H). destruct (H SO) as [H1 H2]. destruct SO as (Ir & As & _).
  apply in_app_or in I. destruct I as [I|[I|I]]; [apply As, H1; exact I|subst; apply Ir|apply H2; exact I].
Qed.

Lemma enumerate_in {A} (l : list A) i x : In (i, x) (enumerate l) <-> nth_error l i = Some x.
Proof.
  unfold enumerate. assert (forall k, In (i, x) (combine (seq k (List.length l)) l) <-> (k <= i)%nat /\ nth_error l (i - k) = Some x) as H.
  { induction l as [|y l IH]; intros k; cbn [List.length seq combine].
    - split; [intros []|]. intros [_ E]. destruct (i - k)%nat; discriminate.
    - cbn [In]. rewrite IH. split.
      + intros [E|[L E]].
        * injection E as -> ->. rewrite Nat.sub_diag. split; [lia|reflexivity].
        * split; [lia|]. replace (i - k)%nat with (S (i - S k)) by lia. exact E.
      + intros [L E]. destruct (Nat.eq_dec i k) as [D|D].
        * left. subst. rewrite Nat.sub_diag in E. cbn in E. congruence.
        * right. split; [lia|]. replace (i - k)%nat with (S (i - S k)) in E by lia. exact E. }
  rewrite (H 0%nat), Nat.sub_0_r. split; [tauto|]. intros; split; [lia|auto].
Qed.
Lemma enumerate_nil {A} (l : list A) : enumerate l = [] -> l = [].
Proof. destruct l; [reflexivity|discriminate]. Qed.
(** The indices increase. *)
Lemma enumerate_split {A} (l : list A) l1 i x l2 j y : enumerate l = l1 ++ (i, x) :: l2 -> nth_error l j = Some y ->
  ((j < i)%nat -> In (j, y) l1) /\ ((i < j)%nat -> In (j, y) l2).
Proof.
  intros E J. apply enumerate_in in J. rewrite E in J.
  assert (forall k a b c, combine (seq k (List.length l)) l = a ++ (i, x) :: b -> In c a -> (fst c < i)%nat) as L1.
  { clear. induction l as [|z l IH]; intros k a b c E I; [destruct a; discriminate|]. cbn [List.length seq combine] in E.
    destruct a as [|w a]; [destruct I|]. cbn in E. injection E as <- E. destruct I as [I|I]; [|eapply IH; eauto].
    subst c. cbn [fst]. assert (In (i, x) (combine (seq (S k) (List.length l)) l)) as I by (rewrite E; apply in_or_app; right; left; reflexivity).
    apply in_combine_l in I. apply in_seq in I. lia. }
  assert (forall k a b c, combine (seq k (List.length l)) l = a ++ (i, x) :: b -> In c b -> (i < fst c)%nat) as L2.
  { clear. induction l as [|z l IH]; intros k a b c E I; [destruct a; discriminate|]. cbn [List.length seq combine] in E.
    destruct a as [|w a]; cbn in E; [injection E as -> -> <-|injection E as _ E; eapply IH; eauto].
    destruct c as [c1 c2]. apply in_combine_l in I. apply in_seq in I. cbn. lia. }
  specialize (L1 0%nat l1 l2 (j, y) E). specialize (L2 0%nat l1 l2 (j, y) E). cbn [fst] in *.
  apply in_app_or in J. destruct J as [J|[J|J]].
  - specialize (L1 J). split; [auto|lia].
  - injection J as -> ->. split; lia.
  - specialize (L2 J). split; [lia|auto].
Qed.

Lemma rotate_in {A} n (l : list A) x : In x (skipn n l ++ firstn n l) <-> In x l.
Proof. rewrite <- (firstn_skipn n l) at 3. rewrite !in_app_iff. tauto. Qed.

(** ** Choosing *)
Definition child_of (x : node) (i : nat) (c : node) : Prop := exists cs, n_children x = Some cs /\ nth_error cs i = Some c.

Lemma choose_action_child less pick x i c : choose_action less pick x = Some (i, c) -> child_of x i c.
Proof.
  unfold choose_action. destruct (n_children x) as [cs|] eqn:E; [|discriminate]. intros H. apply max_by_in, rotate_in, enumerate_in in H.
  exists cs. auto.
Qed.
Lemma choose_action_some less pick x cs : n_children x = Some cs -> cs <> [] -> exists i c, choose_action less pick x = Some (i, c).
Proof.
  intros E N. unfold choose_action. rewrite E. cbv zeta. set (l := skipn _ _ ++ firstn _ _). destruct (max_by_some (fun a b => less (n_visits x) (stats (snd a)) (stats (snd b))) l) as ([i c] & M).
  - unfold l. intros Z. apply N, enumerate_nil. rewrite <- (firstn_skipn (pick mod List.length cs) (enumerate cs)).
    apply app_eq_nil in Z. destruct Z as [Z1 Z2]. rewrite Z1, Z2. reflexivity.
  - rewrite M. eauto.
Qed.
Lemma strict_order_on {A B} (f : A -> B) (less : B -> B -> bool) : strict_order less -> strict_order (fun a b => less (f a) (f b)).
Proof. intros (I & As & Tr). split; [|split]; intros; eauto. Qed.

Lemma choose_action_best less pick x i c : strict_order (less (n_visits x)) -> choose_action less pick x = Some (i, c) -> most_urgent less x i.
Proof.
  intros SO H. destruct (choose_action_child _ _ _ _ _ H) as (cs & E & Ci). exists cs, c. split; [exact E|]. split; [exact Ci|].
  intros j c' J. unfold choose_action in H. rewrite E in H. cbv zeta in H.
  apply (max_by_greatest _ _ _ (j, c') (strict_order_on (fun a : nat * node => stats (snd a)) _ SO)) in H; [exact H|].
  apply rotate_in, enumerate_in. exact J.
Qed.

Lemma less_Z_order {A} (f : A -> Z) : strict_order (fun a b => f a <? f b).
Proof. split; [|split]; intros; rewrite ?Z.ltb_ge, ?Z.ltb_lt in *; lia. Qed.

Lemma choose_greedy_best x i c : choose_greedy x = Some (i, c) -> most_wins x i /\ child_of x i c.
Proof.
  unfold choose_greedy. destruct (n_children x) as [cs|] eqn:E; [|discriminate]. intros H.
  destruct (max_by_split _ _ _ H) as (l1 & l2 & EL & SP). destruct (SP (less_Z_order (fun a : nat * node => n_wins (snd a)))) as [S1 S2].
  pose proof (max_by_in _ _ _ H) as I. apply enumerate_in in I. split; [|exists cs; auto]. exists cs, c. split; [exact E|]. split; [exact I|].
  intros j c' J. destruct (enumerate_split cs l1 i c l2 j c' EL J) as [A B]. destruct (Nat.lt_trichotomy j i) as [L|[L|L]].
  - specialize (S1 _ (A L)). cbn [snd] in S1. lia.
  - subst j. assert (c' = c) by congruence. subst. lia.
  - specialize (S2 _ (B L)). cbn [snd] in S2. lia.
Qed.
Lemma choose_greedy_some x cs : n_children x = Some cs -> cs <> [] -> exists i c, choose_greedy x = Some (i, c).
Proof.
  intros E N. unfold choose_greedy. rewrite E. destruct (max_by_some (fun a b : nat * node => n_wins (snd a) <? n_wins (snd b)) (enumerate cs)) as ([i c] & M); eauto.
  intros Z. apply N, enumerate_nil, Z.
Qed.

(** ** Trees with [b] children for each expanded node *)
Inductive wf (b : nat) : node -> Prop :=
| wf_leaf w v : wf b (Node None w v)
| wf_node cs w v : List.length cs = b -> Forall (wf b) cs -> wf b (Node (Some cs) w v).

Fixpoint node_ind' (Pr : node -> Prop) (leaf : forall w v, Pr (Node None w v))
  (inner : forall cs w v, Forall Pr cs -> Pr (Node (Some cs) w v)) (x : node) : Pr x :=
  match x with
  | Node None w v => leaf w v
  | Node (Some cs) w v => inner cs w v ((fix go l : Forall Pr l := match l with [] => Forall_nil _ | y :: l' => Forall_cons y (node_ind' Pr leaf inner y) (go l') end) cs)
  end.

Lemma wf_child b x i c : wf b x -> child_of x i c -> wf b c /\ (i < b)%nat.
Proof.
  intros W (cs & E & I). destruct W as [w v|cs' w v L F]; cbn in E; [discriminate|]. injection E as ->. split.
  - eapply Forall_forall; [exact F|]. eapply nth_error_In. exact I.
  - rewrite <- L. apply nth_error_Some. congruence.
Qed.

Lemma node_at_app p q x : node_at (p ++ q) x = match node_at p x with Some y => node_at q y | None => None end.
Proof.
  revert x. induction p as [|i p IH]; intros x; [reflexivity|]. cbn [app node_at]. destruct (n_children x) as [cs|]; [|reflexivity].
  destruct (nth_error cs i); [apply IH|reflexivity].
Qed.
Lemma node_at_one x i : node_at [i] x = match n_children x with Some cs => nth_error cs i | None => None end.
Proof. cbn. destruct (n_children x) as [cs|]; [|reflexivity]. destruct (nth_error cs i); reflexivity. Qed.
Lemma wf_at b p x y : wf b x -> node_at p x = Some y -> wf b y /\ Forall (fun i => (i < b)%nat) p.
Proof.
  revert x. induction p as [|i p IH]; intros x W E; [cbn in E; injection E as <-; split; [exact W|constructor]|]. cbn in E.
  destruct (n_children x) as [cs|] eqn:E1; [|discriminate]. destruct (nth_error cs i) as [c|] eqn:E2; [|discriminate].
  destruct (wf_child b x i c W) as [W' L]; [exists cs; auto|]. destruct (IH _ W' E) as [A B]. split; [exact A|]. constructor; auto.
Qed.

(** ** Walking *)
Section Walk.
Variable b : nat.
Hypothesis b_pos : (1 <= b)%nat.
Variable choose : nat -> node -> option (nat * node).
Variable best : node -> nat -> Prop.
Hypothesis choose_best : forall k x i c, choose k x = Some (i, c) -> best x i /\ child_of x i c.
Hypothesis choose_some : forall k x cs, n_children x = Some cs -> cs <> [] -> exists i c, choose k x = Some (i, c).

Lemma walk_ok x : wf b x -> forall k, exists path leaf, walk choose k x = Some path /\ descends best x path /\
  node_at path x = Some leaf /\ n_children leaf = None.
Proof.
  induction x as [w v|cs w v IH] using node_ind'; intros W k.
  - exists [], (Node None w v). split; [reflexivity|]. split; [constructor; reflexivity|]. split; reflexivity.
  - inversion W as [|? ? ? L F]; subst. destruct (choose_some k (Node (Some cs) w v) cs eq_refl) as (i & c & E); [intros ->; cbn in b_pos; lia|].
    destruct (choose_best _ _ _ _ E) as [B (cs' & Ec & I)]. cbn in Ec. injection Ec as <-.
    assert (In c cs) as IC by (eapply nth_error_In; exact I). rewrite Forall_forall in IH, F.
    destruct (IH c IC (F c IC) (S k)) as (p & leaf & E1 & D & A & N). exists (i :: p), leaf.
    cbn [walk]. rewrite E, nth_error_map, I. cbn [option_map]. rewrite E1. split; [reflexivity|]. split; [econstructor; eauto; reflexivity|].
    cbn [node_at n_children]. rewrite I. auto.
Qed.
End Walk.

(** ** Changing the tree *)
Lemma nth_replace {A} i (y : A) l j : nth_error (replace_nth i y l) j = if Nat.eqb i j then (if Nat.ltb i (List.length l) then Some y else None) else nth_error l j.
Proof.
  revert l j. induction i as [|i IH]; intros [|x l] j; cbn [replace_nth List.length].
  - destruct j; reflexivity.
  - destruct j; reflexivity.
  - destruct j; cbn; [reflexivity|]. destruct (Nat.eqb i j); [|reflexivity]. replace (Nat.ltb (S i) 0) with false by reflexivity. reflexivity.
  - destruct j; cbn [nth_error Nat.eqb]; [reflexivity|]. rewrite IH. reflexivity.
Qed.
Lemma replace_length {A} i (y : A) l : List.length (replace_nth i y l) = List.length l.
Proof. revert l. induction i as [|i IH]; intros [|x l]; cbn; auto. Qed.
Lemma Forall_replace {A} (Q : A -> Prop) i y l : Forall Q l -> Q y -> Forall Q (replace_nth i y l).
Proof. intros F. revert i. induction F as [|x l H F IH]; intros [|i] Y; cbn; constructor; auto. Qed.

Lemma prefixb_cons i p j q : prefixb (i :: p) (j :: q) = Nat.eqb i j && prefixb p q.
Proof.
  unfold prefixb. cbn [List.length firstn]. destruct (Nat.eqb_spec i j) as [->|N]; cbn [andb].
  - destruct (list_eq_dec Nat.eq_dec (j :: p) (j :: firstn (List.length p) q)) as [Z|Z], (list_eq_dec Nat.eq_dec p (firstn (List.length p) q)) as [Z'|Z']; try reflexivity; congruence.
  - destruct (list_eq_dec Nat.eq_dec (i :: p) (j :: firstn (List.length p) q)) as [Z|Z]; [congruence|reflexivity].
Qed.
Lemma prefixb_nil q : prefixb [] q = true.
Proof. reflexivity. Qed.
Lemma prefixb_long i p : prefixb (i :: p) [] = false.
Proof. reflexivity. Qed.
Lemma prefixb_spec p q : prefixb p q = true <-> prefix p q.
Proof.
  revert q. induction p as [|i p IH]; intros q; [split; [exists q; reflexivity|reflexivity]|].
  destruct q as [|j q]; [split; [discriminate|intros (r & E); discriminate]|]. rewrite prefixb_cons, andb_true_iff, Nat.eqb_eq, IH. split.
  - intros (-> & r & ->). exists r. reflexivity.
  - intros (r & E). injection E as -> ->. split; [reflexivity|exists r; reflexivity].
Qed.

Lemma sum_replace l : forall i y (c : node), nth_error l i = Some c ->
  (list_sum (map count_tree_size (replace_nth i y l)) + count_tree_size c = list_sum (map count_tree_size l) + count_tree_size y)%nat.
Proof.
  induction l as [|x l IH]; intros [|i] y c E; try discriminate; cbn [nth_error] in E.
  - injection E as ->. cbn. lia.
  - cbn [replace_nth map list_sum fold_right]. specialize (IH i y c E). unfold list_sum in *. lia.
Qed.

Section Expand.
Variable tp : tparams.
Let b := branching (tp_splits tp).

Lemma expand_new path : forall x leaf, node_at path x = Some leaf -> n_children leaf = None ->
  forall q z, node_at q (update_at (expanded tp) path x) = Some z ->
    (exists z0, node_at q x = Some z0 /\ stats z = stats z0) \/ (exists i, q = path ++ [i] /\ (i < b)%nat /\ z = fresh tp).
Proof.
  induction path as [|i path IH]; intros x leaf E N q z H.
  - cbn in E. injection E as <-. cbn [update_at] in H. destruct q as [|j q].
    + cbn in H. injection H as <-. left. exists x. split; reflexivity.
    + right. cbn [node_at expanded n_children] in H. destruct (nth_error (repeat (fresh tp) (branching (tp_splits tp))) j) as [c|] eqn:Ej; [|discriminate].
      assert (j < b)%nat as LT. { unfold b. rewrite <- (repeat_length (fresh tp)). apply nth_error_Some. congruence. }
      apply nth_error_In, repeat_spec in Ej. subst c. destruct q as [|k q]; [|discriminate]. cbn in H. injection H as <-. exists j. auto.
  - cbn [node_at] in E. cbn [update_at] in H. destruct (n_children x) as [cs|] eqn:Ec; [|discriminate]. destruct (nth_error cs i) as [c|] eqn:Ei; [|discriminate].
    destruct q as [|j q].
    + cbn in H. injection H as <-. left. exists x. split; [reflexivity|]. destruct x; reflexivity.
    + cbn [node_at n_children] in H. rewrite nth_replace in H. cbn [node_at]. rewrite Ec. destruct (Nat.eqb_spec i j) as [D|D].
      * subst j. assert (i < List.length cs)%nat as LT by (apply nth_error_Some; congruence). apply Nat.ltb_lt in LT. rewrite LT in H. rewrite Ei.
        destruct (IH c leaf E N q z H) as [X|(k & -> & KL & ->)]; [left; exact X|right; exists k; auto].
      * destruct (nth_error cs j) as [cj|]; [|discriminate]. left. exists z. auto.
Qed.

Lemma expand_old path : forall x leaf, node_at path x = Some leaf -> n_children leaf = None ->
  forall q z0, node_at q x = Some z0 -> exists z, node_at q (update_at (expanded tp) path x) = Some z /\ stats z = stats z0.
Proof.
  induction path as [|i path IH]; intros x leaf E N q z0 H.
  - cbn in E. injection E as <-. cbn [update_at]. destruct q as [|j q].
    + cbn in H. injection H as <-. eexists. split; [reflexivity|]. reflexivity.
    + cbn in H. rewrite N in H. discriminate.
  - cbn [node_at] in E. cbn [update_at]. destruct (n_children x) as [cs|] eqn:Ec; [|discriminate]. destruct (nth_error cs i) as [c|] eqn:Ei; [|discriminate].
    destruct q as [|j q].
    + cbn in H. injection H as <-. eexists. split; [reflexivity|]. destruct x; reflexivity.
    + cbn [node_at n_children] in *. rewrite Ec in H. rewrite nth_replace. destruct (Nat.eqb_spec i j) as [D|D].
      * subst j. assert (i < List.length cs)%nat as LT by (apply nth_error_Some; congruence). apply Nat.ltb_lt in LT. rewrite LT. rewrite Ei in H.
        exact (IH c leaf E N q z0 H).
      * destruct (nth_error cs j) as [cj|]; [|discriminate]. exists z0. auto.
Qed.

Lemma expand_child path : forall x leaf i, node_at path x = Some leaf -> (i < b)%nat ->
  node_at (path ++ [i]) (update_at (expanded tp) path x) = Some (fresh tp).
Proof.
  induction path as [|j path IH]; intros x leaf i E L.
  - cbn [app update_at]. rewrite node_at_one. cbn [expanded n_children]. apply nth_error_repeat. exact L.
  - cbn [node_at] in E. cbn [update_at app]. destruct (n_children x) as [cs|] eqn:Ec; [|discriminate]. destruct (nth_error cs j) as [c|] eqn:Ei; [|discriminate].
    cbn [node_at n_children]. rewrite nth_replace, Nat.eqb_refl. assert (j < List.length cs)%nat as LT by (apply nth_error_Some; congruence).
    apply Nat.ltb_lt in LT. rewrite LT. exact (IH c leaf i E L).
Qed.

Lemma expand_wf path : forall x leaf, wf b x -> node_at path x = Some leaf -> wf b (update_at (expanded tp) path x).
Proof.
  induction path as [|i path IH]; intros x leaf W E.
  - cbn [update_at]. constructor; [apply repeat_length|]. apply Forall_forall. intros y I. apply repeat_spec in I. subst y. constructor.
  - cbn [node_at] in E. cbn [update_at]. destruct (n_children x) as [cs|] eqn:Ec; [|discriminate]. destruct (nth_error cs i) as [c|] eqn:Ei; [|discriminate].
    inversion W as [w v E1|cs' w v L F E1]; subst; cbn in Ec; [discriminate|]. injection Ec as ->.
    constructor; [rewrite replace_length; exact L|]. apply Forall_replace; [exact F|]. apply IH with leaf; [|exact E].
    eapply Forall_forall; [exact F|]. eapply nth_error_In. exact Ei.
Qed.

Lemma expand_size path : forall x leaf, node_at path x = Some leaf -> n_children leaf = None ->
  count_tree_size (update_at (expanded tp) path x) = (count_tree_size x + b)%nat.
Proof.
  induction path as [|i path IH]; intros x leaf E N.
  - cbn in E. injection E as <-. destruct x as [cs w v]. cbn in N. subst cs. cbn [update_at expanded n_wins n_visits count_tree_size].
    fold b. f_equal. clear. induction b as [|n IHn]; [reflexivity|]. cbn. unfold list_sum in IHn. rewrite IHn. reflexivity.
  - cbn [node_at] in E. cbn [update_at]. destruct (n_children x) as [cs|] eqn:Ec; [|discriminate]. destruct (nth_error cs i) as [c|] eqn:Ei; [|discriminate].
    destruct x as [cs' w v]. cbn in Ec. subst cs'. cbn [count_tree_size n_wins n_visits].
    pose proof (sum_replace cs i (update_at (expanded tp) path c) c Ei) as S. rewrite (IH c leaf E N) in S. lia.
Qed.
End Expand.

(** ** Statistics *)
Definition plus_game (hit won : bool) (s : Z * Z) : Z * Z :=
  if hit then ((if won then fst s + 1 else fst s), snd s + 1) else s.

Lemma stats_visited won x : stats (visited won x) = plus_game true won (stats x).
Proof. destruct x, won; reflexivity. Qed.

Lemma update_stats_at won path : forall x, node_at path x <> None -> forall q,
  match node_at q x, node_at q (update_stats won path x) with
  | Some z0, Some z => stats z = plus_game (prefixb q path) won (stats z0)
  | None, None => True
  | _, _ => False
  end.
Proof.
  induction path as [|i path IH]; intros x NX q.
  - cbn [update_stats]. destruct q as [|j q].
    + cbn [node_at]. rewrite stats_visited, prefixb_nil. reflexivity.
    + cbn [node_at visited n_children]. destruct (n_children x) as [cs|]; [|exact I]. destruct (nth_error cs j) as [c|]; [|exact I].
      destruct (node_at q c); [|exact I]. rewrite prefixb_long. reflexivity.
  - cbn [node_at] in NX. cbn [update_stats]. destruct (n_children x) as [cs|] eqn:Ec; [|congruence]. destruct (nth_error cs i) as [c|] eqn:Ei; [|congruence].
    destruct q as [|j q].
    + cbn [node_at]. rewrite prefixb_nil. rewrite <- stats_visited. reflexivity.
    + cbn [node_at n_children]. rewrite Ec, nth_replace, prefixb_cons. destruct (Nat.eqb_spec i j) as [D|D].
      * subst j. assert (i < List.length cs)%nat as LT by (apply nth_error_Some; congruence). apply Nat.ltb_lt in LT. rewrite LT, Ei.
        rewrite Nat.eqb_refl. cbn [andb]. exact (IH c NX q).
      * destruct (nth_error cs j) as [cj|]; [|exact I]. destruct (Nat.eqb_spec j i) as [D2|_]; [congruence|]. cbn [andb]. destruct (node_at q cj); [reflexivity|exact I].
Qed.

Lemma update_stats_wf b won path : forall x, wf b x -> wf b (update_stats won path x).
Proof.
  induction path as [|i path IH]; intros x W.
  - cbn. inversion W; subst; constructor; auto.
  - cbn [update_stats]. inversion W as [w v E|cs w v L F E]; subst; cbn [n_children]; [constructor|]. destruct (nth_error cs i) as [c|] eqn:Ei; [|constructor; auto].
    constructor; [rewrite replace_length; reflexivity|]. apply Forall_replace; [exact F|]. apply IH. eapply Forall_forall; [exact F|]. eapply nth_error_In. exact Ei.
Qed.

Lemma update_stats_size won path : forall x, count_tree_size (update_stats won path x) = count_tree_size x.
Proof.
  induction path as [|i path IH]; intros [cs w v].
  - destruct cs; reflexivity.
  - cbn [update_stats n_children]. destruct cs as [cs|]; [|reflexivity]. destruct (nth_error cs i) as [c|] eqn:Ei; [|reflexivity].
    cbn [count_tree_size]. pose proof (sum_replace cs i (update_stats won path c) c Ei) as S. rewrite IH in S. cbn [count_tree_size n_wins n_visits]. lia.
Qed.

Lemma update_stats_children won path x : n_children (update_stats won path x) = None <-> n_children x = None.
Proof.
  destruct path as [|i path]; destruct x as [[cs|] w v]; cbn; try tauto. destruct (nth_error cs i); cbn; split; discriminate.
Qed.
