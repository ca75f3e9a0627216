(** Proofs about the elites and the new distribution (C43). *)
From Coq Require Import QArith Qround Lqa Permutation Sorted.
From Verif Require Import Base Bytes CemModel CemSpec.
Open Scope Z_scope.

(** ** Sorting *)
Lemma pair_before_spec a b : pair_before a b = true <-> fst b < fst a \/ (fst a = fst b /\ (snd b < snd a)%nat).
Proof. unfold pair_before. rewrite orb_true_iff, andb_true_iff, Z.ltb_lt, Z.eqb_eq, Nat.ltb_lt. reflexivity. Qed.
Lemma pair_before_false a b : pair_before a b = false <-> fst a < fst b \/ (fst a = fst b /\ (snd a <= snd b)%nat).
Proof.
  destruct (pair_before a b) eqn:E.
  - apply pair_before_spec in E. split; [discriminate|lia].
  - split; [|reflexivity]. intros _. assert (~ (fst b < fst a \/ (fst a = fst b /\ (snd b < snd a)%nat))) as N by (rewrite <- pair_before_spec; congruence). lia.
Qed.
Lemma insert_perm a l : Permutation (insert_pair a l) (a :: l).
Proof.
  induction l as [|b l IH]; [reflexivity|]. cbn. destruct (pair_before a b); [reflexivity|]. rewrite IH. apply perm_swap.
Qed.
Lemma sort_perm l : Permutation (sort_pairs l) l.
Proof. induction l as [|a l IH]; [reflexivity|]. cbn. rewrite insert_perm. constructor. exact IH. Qed.

Definition in_order (a b : Z * nat) : Prop := pair_before b a = false.
Lemma insert_sorted a l : StronglySorted in_order l -> StronglySorted in_order (insert_pair a l).
Proof.
  induction 1 as [|b l S IH F]; [repeat constructor|]. cbn. destruct (pair_before a b) eqn:E.
  - constructor; [constructor; assumption|]. constructor.
    + unfold in_order. apply pair_before_spec in E. apply pair_before_false. lia.
    + eapply Forall_impl; [|exact F]. intros c H. unfold in_order in *. rewrite pair_before_false in *. apply pair_before_spec in E. lia.
  - constructor; [exact IH|]. apply Forall_forall. intros c I. apply (Permutation_in c (insert_perm a l)) in I.
    destruct I as [<-|I]; [exact E|]. rewrite Forall_forall in F. auto.
Qed.
Lemma sort_sorted l : StronglySorted in_order (sort_pairs l).
Proof. induction l as [|a l IH]; [constructor|]. apply insert_sorted. exact IH. Qed.

Lemma sorted_split (l : list (Z * nat)) n a b : StronglySorted in_order l -> In a (firstn n l) -> In b (skipn n l) -> in_order a b.
Proof.
  revert n. induction l as [|c l IH]; intros [|n] S IA IB; cbn in *; try contradiction.
  inversion S as [|? ? S' F]; subst. destruct IA as [<-|IA]; [|eapply IH; eauto].
  rewrite Forall_forall in F. apply F. rewrite <- (firstn_skipn n l). apply in_or_app. right. exact IB.
Qed.

Lemma combine_seq_in {A} (l : list A) k x i : In (x, i) (combine l (seq k (List.length l))) <-> (k <= i)%nat /\ nth_error l (i - k) = Some x.
Proof.
  revert k. induction l as [|y l IH]; intros k; cbn.
  - split; [tauto|]. intros [_ E]. destruct (i - k)%nat; discriminate.
  - rewrite IH. split.
    + intros [E|[L E]].
      * injection E as <- <-. rewrite Nat.sub_diag. split; [lia|reflexivity].
      * split; [lia|]. replace (i - k)%nat with (S (i - S k))%nat by lia. exact E.
    + intros [L E]. destruct (Nat.eq_dec i k) as [->|N].
      * rewrite Nat.sub_diag in E. cbn in E. injection E as <-. left. reflexivity.
      * right. split; [lia|]. replace (i - k)%nat with (S (i - S k))%nat in E by lia. exact E.
Qed.
Lemma combine_seq_snd {A} (l : list A) k : map snd (combine l (seq k (List.length l))) = seq k (List.length l).
Proof. revert k. induction l as [|y l IH]; intros k; cbn; [reflexivity|]. rewrite IH. reflexivity. Qed.

Lemma sorter_numbers wins : Permutation (map snd (sorter wins)) (seq 0 (List.length wins)).
Proof. unfold sorter. rewrite (Permutation_map snd (sort_perm _)). rewrite combine_seq_snd. reflexivity. Qed.
Lemma sorter_in wins x i : In (x, i) (sorter wins) <-> nth_error wins i = Some x.
Proof.
  unfold sorter. split.
  - intros I. apply (Permutation_in _ (sort_perm _)) in I. apply combine_seq_in in I. rewrite Nat.sub_0_r in I. apply I.
  - intros E. apply (Permutation_in _ (Permutation_sym (sort_perm _))). apply combine_seq_in. rewrite Nat.sub_0_r. split; [lia|exact E].
Qed.
Lemma sorter_length wins : List.length (sorter wins) = List.length wins.
Proof. rewrite <- (map_length snd), (Permutation_length (sorter_numbers wins)). apply seq_length. Qed.

(** ** The number of elites *)
Lemma elite_count_nearest p samples : (0 < p < 1)%Q -> nearest_count p samples (elite_count p samples).
Proof.
  intros [P0 P1]. unfold nearest_count, elite_count. set (x := (p * inject_Z (Z.of_nat samples))%Q).
  assert (0 <= x)%Q as X0. { unfold x. apply Qmult_le_0_compat; [lra|]. change 0%Q with (inject_Z 0). rewrite <- Zle_Qle. lia. }
  pose proof (Qfloor_le (x + (1 # 2))) as F1. pose proof (Qlt_floor (x + (1 # 2))) as F2.
  set (f := Qfloor (x + (1 # 2))) in *. rewrite inject_Z_plus in F2. change (inject_Z 1) with 1%Q in F2.
  destruct (Z.le_gt_cases 1 f) as [L|L].
  - rewrite Z.max_r by lia. rewrite Z2Nat.id by lia. split; [lia|]. split; [lra|left; lra].
  - rewrite Z.max_l by lia. change (Z.to_nat 1) with 1%nat. split; [lia|]. split; [|right; reflexivity].
    assert (f <= 0) as L0 by lia. rewrite Zle_Qle in L0. change (inject_Z 0) with 0%Q in L0. change (inject_Z (Z.of_nat 1)) with 1%Q. lra.
Qed.
Lemma nearest_le p samples n : (0 < p < 1)%Q -> (1 <= samples)%nat -> nearest_count p samples n -> (n <= samples)%nat.
Proof.
  intros [P0 P1] S1 (N1 & N2 & N3). destruct (Nat.le_gt_cases n samples) as [L|L]; [exact L|exfalso].
  destruct N3 as [N3|N3]; [|lia].
  assert (inject_Z (Z.of_nat samples) + 1 <= inject_Z (Z.of_nat n))%Q as LQ.
  { change 1%Q with (inject_Z 1). rewrite <- inject_Z_plus, <- Zle_Qle. lia. }
  assert (0 < inject_Z (Z.of_nat samples))%Q as S0. { change 0%Q with (inject_Z 0). rewrite <- Zlt_Qlt. lia. }
  assert (p * inject_Z (Z.of_nat samples) < inject_Z (Z.of_nat samples))%Q as M.
  { setoid_replace (inject_Z (Z.of_nat samples)) with (1 * inject_Z (Z.of_nat samples))%Q at 2 by ring. apply Qmult_lt_compat_r; assumption. }
  lra.
Qed.

Lemma map_firstn {A B} (f : A -> B) n l : map f (firstn n l) = firstn n (map f l).
Proof. revert l; induction n as [|n IH]; intros [|x l]; cbn; try reflexivity. f_equal. apply IH. Qed.
Lemma NoDup_firstn {A} n (l : list A) : NoDup l -> NoDup (firstn n l).
Proof.
  intros H. revert n. induction H as [|x l N H IH]; intros [|n]; cbn; constructor; auto.
  intros I. apply N. rewrite <- (firstn_skipn n l). apply in_or_app. left. exact I.
Qed.

Lemma elites_correct p wins : (0 < p < 1)%Q -> wins <> [] ->
  elites_of p wins (map snd (firstn (elite_count p (List.length wins)) (sorter wins))).
Proof.
  intros PP NE. set (n := elite_count p (List.length wins)).
  assert (1 <= List.length wins)%nat as L1 by (destruct wins; [congruence|cbn; lia]).
  pose proof (elite_count_nearest p (List.length wins) PP) as NC. fold n in NC.
  pose proof (nearest_le _ _ _ PP L1 NC) as NL.
  assert (NoDup (map snd (sorter wins))) as ND. { eapply Permutation_NoDup; [symmetry; apply sorter_numbers|apply seq_NoDup]. }
  split; [|split; [|split]].
  - rewrite map_firstn. apply NoDup_firstn. exact ND.
  - intros i I. apply in_map_iff in I. destruct I as ([x k] & <- & I). cbn.
    assert (In (x, k) (sorter wins)) as I2. { rewrite <- (firstn_skipn n (sorter wins)). apply in_or_app. left. exact I. }
    apply sorter_in in I2. apply nth_error_Some. congruence.
  - rewrite map_length, firstn_length_le; [exact NC|]. rewrite sorter_length. exact NL.
  - intros i j I J NJ. apply in_map_iff in I. destruct I as ([x k] & <- & I). cbn [snd].
    destruct (nth_error wins j) as [y|] eqn:EJ; [|apply nth_error_None in EJ; lia].
    assert (In (x, k) (sorter wins)) as I2. { rewrite <- (firstn_skipn n (sorter wins)). apply in_or_app. left. exact I. }
    assert (In (y, j) (sorter wins)) as J2 by (apply sorter_in; exact EJ).
    assert (In (y, j) (skipn n (sorter wins))) as J3.
    { rewrite <- (firstn_skipn n (sorter wins)) in J2. apply in_app_or in J2. destruct J2 as [J2|J2]; [|exact J2].
      exfalso. apply NJ. apply in_map_iff. exists (y, j). auto. }
    pose proof (sorted_split _ n _ _ (sort_sorted _) I J3) as O. unfold in_order in O. apply pair_before_false in O. cbn [fst snd] in O.
    apply sorter_in in I2. exists x, y. split; [exact I2|]. split; [exact EJ|].
    destruct O as [O|[O1 O2]]; [left; exact O|]. destruct (Nat.eq_dec j k) as [->|N]; [|right; lia].
    exfalso. apply NJ. apply in_map_iff. exists (x, k). split; [reflexivity|exact I].
Qed.

(** ** The new distribution *)
Lemma qsum_from l : forall a, (fold_left Qplus l a == a + total l)%Q.
Proof. induction l as [|x l IH]; intros a; cbn; [ring|]. rewrite IH. unfold total. ring. Qed.
Lemma qsum_total l : (qsum l == total l)%Q.
Proof. unfold qsum. rewrite qsum_from. ring. Qed.
Lemma qlen_pos {A} (l : list A) : l <> [] -> (0 < qlen l)%Q.
Proof. intros N. unfold qlen. change 0%Q with (inject_Z 0). rewrite <- Zlt_Qlt. destruct l; [congruence|cbn [List.length]; lia]. Qed.

Lemma total_squares (m : Q) v :
  (total (map (fun x => (x - m) * (x - m)) v) == total (map square v) - 2 * m * total v + m * m * qlen v)%Q.
Proof.
  induction v as [|x v IH]; cbn [map total fold_right].
  - unfold qlen. cbn. ring.
  - unfold total in IH. rewrite IH. assert (qlen (x :: v) == qlen v + 1)%Q as ->.
    { unfold qlen. cbn [List.length]. rewrite Nat2Z.inj_succ, <- Z.add_1_r, inject_Z_plus. reflexivity. }
    unfold square. ring.
Qed.

Lemma update_dimension_mixed step v old : v <> [] -> mixed step old v (update_dimension step v old).
Proof.
  intros NE. pose proof (qlen_pos v NE) as L. destruct old as [om ov]. unfold update_dimension. set (m := (qsum v / qlen v)%Q).
  assert (m * qlen v == total v)%Q as EM. { unfold m. rewrite qsum_total. field. lra. }
  exists m, (qsum (map square v) / qlen v - square m)%Q. split; [exact EM|]. split; [|split; cbn [fst snd]; ring].
  exists m. split; [exact EM|]. unfold mean_of. rewrite map_length. fold (qlen v). rewrite total_squares, <- EM, qsum_total. unfold square. field. lra.
Qed.

Lemma total_nonneg l : Forall (fun x => 0 <= x)%Q l -> (0 <= total l)%Q.
Proof. induction 1 as [|x l H F IH]; cbn; [lra|]. unfold total in IH. lra. Qed.
Lemma square_nonneg (y : Q) : (0 <= y * y)%Q.
Proof.
  destruct (Qlt_le_dec y 0) as [L|L]; [|apply Qmult_le_0_compat; assumption].
  setoid_replace (y * y)%Q with ((- y) * (- y))%Q by ring. apply Qmult_le_0_compat; lra.
Qed.
Lemma variance_nonneg v s : v <> [] -> variance_of v s -> (0 <= s)%Q.
Proof.
  intros NE (m & _ & E). unfold mean_of in E. rewrite map_length in E. pose proof (qlen_pos v NE) as L. unfold qlen in L.
  assert (0 <= total (map (fun x => (x - m) * (x - m)) v))%Q as T.
  { apply total_nonneg. apply Forall_forall. intros y I. apply in_map_iff in I. destruct I as (x & <- & _). apply square_nonneg. }
  rewrite <- E in T. destruct (Qlt_le_dec s 0) as [N|N]; [|exact N]. exfalso.
  assert (s * inject_Z (Z.of_nat (List.length v)) < 0 * inject_Z (Z.of_nat (List.length v)))%Q by (apply Qmult_lt_compat_r; assumption). lra.
Qed.
Lemma total_bounds lo hi v : Forall (fun x => lo <= x <= hi)%Q v -> (lo * qlen v <= total v <= hi * qlen v)%Q.
Proof.
  induction 1 as [|x l H F IH]; [change (total []) with 0%Q; change (@qlen Q []) with 0%Q; lra|]. cbn [total fold_right]. fold (total l).
  assert (qlen (x :: l) == qlen l + 1)%Q as ->. { unfold qlen. cbn [List.length]. rewrite Nat2Z.inj_succ, <- Z.add_1_r, inject_Z_plus. reflexivity. }
  lra.
Qed.
Lemma mean_bounds lo hi v m : v <> [] -> mean_of v m -> Forall (fun x => lo <= x <= hi)%Q v -> (lo <= m <= hi)%Q.
Proof.
  intros NE E F. pose proof (qlen_pos v NE) as L. apply total_bounds in F. unfold mean_of in E. fold (qlen v) in E. rewrite <- E in F.
  split; apply (Qmult_le_r _ _ (qlen v)); try assumption; apply F.
Qed.

Lemma column_spec i elites v : column i elites = Ok v -> Forall2 (fun e x => nth_error e i = Some x) elites v.
Proof.
  revert v. induction elites as [|e l IH]; intros v E; cbn in E; [injection E as <-; constructor|].
  destruct (nth_error e i) as [x|] eqn:EX; [|discriminate]. destruct (column i l) as [w|] eqn:EC; [|discriminate]. injection E as <-. constructor; auto.
Qed.
Lemma column_total i elites : Forall (fun e => (i < List.length e)%nat) elites -> exists v, column i elites = Ok v.
Proof.
  induction 1 as [|e l H F IH]; [eexists; reflexivity|]. cbn. destruct (nth_error e i) eqn:E; [|apply nth_error_None in E; lia].
  destruct IH as (v & ->). eexists. reflexivity.
Qed.

Lemma update_from_ok step elites old i : elites <> [] -> Forall (fun e => List.length e = (i + List.length old)%nat) elites ->
  exists new, update_from i elites step old = Ok new /\ List.length new = List.length old /\
    forall d o n, nth_error old d = Some o -> nth_error new d = Some n ->
      exists v, Forall2 (fun e x => nth_error e (i + d) = Some x) elites v /\ mixed step o v n.
Proof.
  intros NE. revert i. induction old as [|p old IH]; intros i F; cbn [update_from].
  - exists []. split; [reflexivity|]. split; [reflexivity|]. intros [|d]; discriminate.
  - destruct (column_total i elites) as (v & EV). { eapply Forall_impl; [|exact F]. cbn. intros. lia. }
    rewrite EV. cbn [bind]. apply column_spec in EV. assert (v <> []) as NV. { destruct EV; [congruence|discriminate]. }
    destruct v as [|x v]; [congruence|]. destruct (IH (S i)) as (new & -> & L & H). { eapply Forall_impl; [|exact F]. cbn. intros. lia. }
    cbn [bind]. eexists. split; [reflexivity|]. split; [cbn; lia|]. intros [|d] o n EO EN.
    + cbn [nth_error] in EO, EN. injection EO as <-. injection EN as <-. exists (x :: v). rewrite Nat.add_0_r. split; [exact EV|]. apply update_dimension_mixed. exact NV.
    + cbn [nth_error] in EO, EN. rewrite Nat.add_succ_r. exact (H d o n EO EN).
Qed.

Definition good_dist (d : distribution) : Prop := d <> [] /\ Forall (fun p => 0 <= snd p)%Q d.
Lemma new_distribution_ok d : good_dist d -> new_distribution d = Ok d.
Proof.
  intros [NE F]. destruct d as [|p d]; [congruence|]. cbn [new_distribution]. replace (forallb _ _) with true; [reflexivity|]. symmetry.
  apply forallb_forall. intros q I. apply Qle_bool_iff. rewrite Forall_forall in F. auto.
Qed.

Lemma nonneg_mix a b s t : (0 <= a)%Q -> (0 <= b)%Q -> (0 < s < 1)%Q -> (t == (1 - s) * a + s * b)%Q -> (0 <= t)%Q.
Proof. intros A B S ->. nra. Qed.

Lemma updated_good step old elites new : (0 < step < 1)%Q -> elites <> [] -> good_dist old -> updated step old elites new -> good_dist new.
Proof.
  intros ST NE [NO F] [L H]. split; [destruct new; [destruct old; [congruence|discriminate]|discriminate]|].
  apply Forall_forall. intros n I. apply In_nth_error in I. destruct I as (d & EN).
  destruct (nth_error old d) as [o|] eqn:EO. 2:{ apply nth_error_None in EO. assert (d < List.length new)%nat by (apply nth_error_Some; congruence). lia. }
  destruct (H d o n EO EN) as (v & F2 & m & s & _ & VS & _ & E). rewrite Forall_forall in F.
  eapply nonneg_mix; [apply (F o); eapply nth_error_In; exact EO| |exact ST|exact E].
  eapply variance_nonneg; [|exact VS]. destruct F2; [congruence|discriminate].
Qed.

Lemma update_distribution_ok step old elites : (0 < step < 1)%Q -> good_dist old -> elites <> [] -> Forall (fun e => List.length e = List.length old) elites ->
  exists new, update_distribution old elites step = Ok new /\ updated step old elites new /\ good_dist new.
Proof.
  intros ST G NE F. unfold update_distribution. destruct (update_from_ok step elites old 0 NE F) as (new & -> & L & H). cbn [bind].
  assert (updated step old elites new) as U by (split; [exact L|exact H]).
  pose proof (updated_good _ _ _ _ ST NE G U) as G2. exists new. rewrite new_distribution_ok by exact G2. auto.
Qed.

(** Means stay between the old ones and the elites'. *)
Lemma updated_hull step old elites new : (0 < step < 1)%Q -> elites <> [] -> updated step old elites new ->
  forall d o n lo hi, nth_error old d = Some o -> nth_error new d = Some n -> (lo <= fst o <= hi)%Q ->
    (forall e x, In e elites -> nth_error e d = Some x -> (lo <= x <= hi)%Q) -> (lo <= fst n <= hi)%Q.
Proof.
  intros ST NE [_ H] d o n lo hi EO EN B1 B2. destruct (H d o n EO EN) as (v & F2 & m & s & ME & _ & E & _).
  assert (v <> []) as NV. { destruct F2; [congruence|discriminate]. }
  assert (lo <= m <= hi)%Q as MB.
  { eapply mean_bounds; [exact NV|exact ME|]. clear -F2 B2. induction F2 as [|e x l w H F IH]; constructor; [apply (B2 e x); [left; reflexivity|exact H]|].
    apply IH. intros e1 x1 I1 E1. eapply B2; [right; exact I1|exact E1]. }
  rewrite E. nra.
Qed.

(** The mix is unique. *)
Lemma mean_unique v m m' : v <> [] -> mean_of v m -> mean_of v m' -> (m == m')%Q.
Proof.
  intros NE A B. unfold mean_of in *. pose proof (qlen_pos v NE) as L. unfold qlen in L.
  apply (Qmult_inj_r m m' (inject_Z (Z.of_nat (List.length v)))); [intros E; rewrite E in L; discriminate|]. rewrite A, B. reflexivity.
Qed.
Lemma total_compat (f g : Q -> Q) v : (forall x, f x == g x)%Q -> (total (map f v) == total (map g v))%Q.
Proof. intros H. induction v as [|x v IH]; cbn; [reflexivity|]. rewrite (H x), IH. reflexivity. Qed.
Lemma variance_unique v s s' : v <> [] -> variance_of v s -> variance_of v s' -> (s == s')%Q.
Proof.
  intros NE (m & M & S1) (m' & M' & S1'). pose proof (mean_unique v m m' NE M M') as E.
  apply (mean_unique (map (fun x => (x - m) * (x - m))%Q v)); [destruct v; [congruence|discriminate]|exact S1|].
  unfold mean_of in *. rewrite map_length in *. rewrite S1'. apply total_compat. intros x. rewrite E. reflexivity.
Qed.
Lemma updated_unique step old elites new new' : elites <> [] -> updated step old elites new -> updated step old elites new' ->
  Forall2 (fun a b => fst a == fst b /\ snd a == snd b)%Q new new'.
Proof.
  intros NE [L H] [L' H'].
  assert (forall d n n', nth_error new d = Some n -> nth_error new' d = Some n' -> fst n == fst n' /\ snd n == snd n')%Q as K.
  { intros d n n' E E'. destruct (nth_error old d) as [o|] eqn:EO.
    2:{ apply nth_error_None in EO. assert (d < List.length new)%nat by (apply nth_error_Some; congruence). lia. }
    destruct (H d o n EO E) as (v & F & m & s & M & S1 & E1 & E2). destruct (H' d o n' EO E') as (v' & F' & m' & s' & M' & S1' & E1' & E2').
    assert (v' = v) as ->.
    { clear -F F'. revert v' F'. induction F as [|e x es v X F IH]; intros v' F'; inversion F' as [|? x' ? v1 X' F1]; subst; [reflexivity|]. f_equal; [congruence|auto]. }
    assert (v <> []) as NV. { destruct F; [congruence|discriminate]. }
    rewrite E1, E1', E2, E2', (mean_unique v m m' NV M M'), (variance_unique v s s' NV S1 S1'). split; reflexivity. }
  assert (List.length new = List.length new') as LL by congruence. clear -K LL. revert new' K LL.
  induction new as [|a new IH]; intros [|b new'] K LL; try discriminate; constructor; [exact (K 0%nat a b eq_refl eq_refl)|].
  apply IH; [intros d n n' E E'; exact (K (S d) n n' E E')|cbn in LL; lia].
Qed.
