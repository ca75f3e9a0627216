(** Proofs for C73: the order of paths, generations, and the selection of nodes. *)
From Coq Require Import QArith Permutation Sorted.
From Verif Require Import Base Bytes PyStr Dict CommonModel SgfPropsModel SchedModel GameplayModel TableModel ReportModel MctsModel MctsSpec MctsCellProofs MctsTreeProofs MctsProofs MctsReportModel MctsReportSpec.
Open Scope Z_scope.

(** ** The order of paths *)
Lemma before_nil p : ~ before p [].
Proof. intros [(i & r & E)|(s & i & j & p' & q' & _ & E & _)]; [destruct p|destruct s]; discriminate. Qed.
Lemma before_cons x a y b : before (x :: a) (y :: b) <-> (x < y)%nat \/ (x = y /\ before a b).
Proof.
  split.
  - intros [(i & r & E)|(s & i & j & p' & q' & E1 & E2 & L)].
    + cbn in E. injection E as -> ->. right. split; [reflexivity|]. left. exists i, r. reflexivity.
    + destruct s as [|z s]; cbn in E1, E2.
      * injection E1 as -> _. injection E2 as -> _. left. exact L.
      * injection E1 as -> ->. injection E2 as -> ->. right. split; [reflexivity|]. right. exists s, i, j, p', q'. auto.
  - intros [L|[-> [(i & r & ->)|(s & i & j & p' & q' & -> & -> & L)]]].
    + right. exists [], x, y, a, b. auto.
    + left. exists i, r. reflexivity.
    + right. exists (y :: s), i, j, p', q'. auto.
Qed.
Lemma before_first x a : before [] (x :: a).
Proof. left. exists x, a. reflexivity. Qed.
Lemma before_spec a : forall b, path_ltb a b = true <-> before a b.
Proof.
  induction a as [|x a IH]; intros [|y b]; cbn [path_ltb].
  - split; [discriminate|]. intros H. destruct (before_nil _ H).
  - split; [intros _; apply before_first|reflexivity].
  - split; [discriminate|]. intros H. destruct (before_nil _ H).
  - rewrite before_cons, orb_true_iff, andb_true_iff, Nat.ltb_lt, Nat.eqb_eq, IH. reflexivity.
Qed.
Lemma before_irrefl p : ~ before p p.
Proof. induction p as [|x p IH]; [apply before_nil|]. rewrite before_cons. intros [L|[_ H]]; [lia|exact (IH H)]. Qed.
Lemma before_trans p : forall q r, before p q -> before q r -> before p r.
Proof.
  induction p as [|x p IH]; intros [|y q] [|z r] A B; try (destruct (before_nil _ A)); try (destruct (before_nil _ B)); [apply before_first|].
  rewrite before_cons in *. destruct A as [A|[-> A]], B as [B|[-> B]]; [left; lia|left; lia|left; lia|]. right. split; [reflexivity|]. eapply IH; eauto.
Qed.
Lemma before_total p : forall q, before p q \/ p = q \/ before q p.
Proof.
  induction p as [|x p IH]; intros [|y q]; [right; left; reflexivity|left; apply before_first|right; right; apply before_first|].
  rewrite !before_cons. destruct (Nat.lt_trichotomy x y) as [L|[->|L]]; [left; left; exact L| |right; right; left; exact L].
  destruct (IH q) as [H|[->|H]]; [left; right; auto|right; left; reflexivity|right; right; right; auto].
Qed.
Lemma before_app p a b : before a b -> before (p ++ a) (p ++ b).
Proof. induction p as [|x p IH]; intros H; [exact H|]. cbn. rewrite before_cons. right. auto. Qed.
Lemma before_ext p a q b : List.length p = List.length q -> before p q -> before (p ++ a) (q ++ b).
Proof.
  revert q. induction p as [|x p IH]; intros [|y q] L H; try discriminate L; [destruct (before_nil _ H)|].
  cbn. rewrite before_cons in *. destruct H as [H|[-> H]]; [left; exact H|]. right. split; [reflexivity|]. apply IH; [cbn in L; lia|exact H].
Qed.

Lemma last_cases {A} (l : list A) : l = [] \/ exists l' x, l = l' ++ [x].
Proof. destruct l as [|a l]; [auto|]. right. destruct (exists_last (l := a :: l)) as (l' & x & E); [discriminate|]. eauto. Qed.

(** ** Sorting *)
Lemma sorted_cons_inv {A} (R : A -> A -> Prop) x l : StronglySorted R (x :: l) -> StronglySorted R l /\ Forall (R x) l.
Proof. intros H. inversion H; auto. Qed.

Lemma sorted_app {A} (R : A -> A -> Prop) a b : StronglySorted R a -> StronglySorted R b -> (forall x y, In x a -> In y b -> R x y) -> StronglySorted R (a ++ b).
Proof.
  induction a as [|x a IH]; intros SA SB H; [exact SB|]. destruct (sorted_cons_inv _ _ _ SA) as [S F]. cbn. constructor.
  - apply IH; [exact S|exact SB|]. intros; apply H; [right|]; assumption.
  - apply Forall_app. split; [exact F|]. apply Forall_forall. intros y I. apply H; [left; reflexivity|exact I].
Qed.
Lemma sorted_split {A} (R : A -> A -> Prop) a b x y : StronglySorted R (a ++ b) -> In x a -> In y b -> R x y.
Proof.
  induction a as [|z a IH]; intros S I J; [destruct I|]. cbn in S. destruct (sorted_cons_inv _ _ _ S) as [S' F]. destruct I as [->|I]; [|auto].
  rewrite Forall_forall in F. apply F. apply in_or_app. right. exact J.
Qed.
Lemma sorted_map {A B} (f : A -> B) (R : B -> B -> Prop) l : StronglySorted R (map f l) <-> StronglySorted (fun a b => R (f a) (f b)) l.
Proof.
  induction l as [|x l IH]; cbn; [split; constructor|]. split; intros H; destruct (sorted_cons_inv _ _ _ H) as [S F]; constructor; try (apply IH; exact S).
  - rewrite Forall_map in F. exact F.
  - rewrite Forall_map. exact F.
Qed.

(** Insertion in a list that's sorted by a relation, when [less] decides it. *)
Section Insert.
Context {A : Type}.
Variable R : A -> A -> Prop.
Variable ins : A -> list A -> list A.
Variable goes_on : A -> A -> bool.   (* [goes_on x y]: [x] is put after [y] *)
Hypothesis ins_nil : forall x, ins x [] = [x].
Hypothesis ins_cons : forall x y r, ins x (y :: r) = if goes_on x y then y :: ins x r else x :: y :: r.
Lemma ins_perm x l : Permutation (x :: l) (ins x l).
Proof.
  induction l as [|y l IH]; [rewrite ins_nil; apply Permutation_refl|]. rewrite ins_cons. destruct (goes_on x y); [|apply Permutation_refl].
  eapply perm_trans; [apply perm_swap|]. apply perm_skip. exact IH.
Qed.
Lemma sort_perm l : Permutation l (fold_right ins [] l).
Proof. induction l as [|x l IH]; [constructor|]. cbn. eapply perm_trans; [apply perm_skip; exact IH|]. apply ins_perm. Qed.
Hypothesis R_trans : forall a b c, R a b -> R b c -> R a c.
Lemma ins_sorted x l : (forall y, In y l -> if goes_on x y then R y x else R x y) -> StronglySorted R l -> StronglySorted R (ins x l).
Proof.
  induction l as [|y l IH]; intros H S; [rewrite ins_nil; constructor; constructor|]. rewrite ins_cons. destruct (sorted_cons_inv _ _ _ S) as [S' F].
  pose proof (H y (or_introl eq_refl)) as Y. destruct (goes_on x y) eqn:G.
  - constructor; [apply IH; [|exact S']; intros; apply H; right; assumption|].
    eapply Permutation_Forall; [apply ins_perm|]. constructor; assumption.
  - constructor; [exact S|]. constructor; [exact Y|]. eapply Forall_impl; [|exact F]. intros z. apply R_trans. exact Y.
Qed.
Lemma sort_sorted (Q : A -> A -> Prop) l : StronglySorted Q l -> (forall x y, Q x y -> if goes_on x y then R y x else R x y) ->
  StronglySorted R (fold_right ins [] l).
Proof.
  intros S D. induction l as [|x l IH]; [constructor|]. destruct (sorted_cons_inv _ _ _ S) as [S' F]. cbn. apply ins_sorted; [|apply IH; exact S'].
  intros y I. apply D. rewrite Forall_forall in F. apply F. eapply Permutation_in; [apply Permutation_sym, sort_perm|exact I].
Qed.
End Insert.

(** ** Generations *)
Lemma enumerate_spec {A} (l : list A) : StronglySorted lt (map fst (enumerate l)).
Proof.
  unfold enumerate. assert (H : forall k (m : list nat), m = seq k (List.length l) -> StronglySorted lt (map fst (combine m l))); [|apply (H O); reflexivity].
  induction l as [|x l IH]; intros k m ->; cbn; [constructor|]. constructor; [apply (IH (S k)); reflexivity|].
  rewrite Forall_map. apply Forall_forall. intros [i y] I. apply in_combine_l in I. apply in_seq in I. cbn [fst]. lia.
Qed.

Definition gen (root : node) (k : nat) (g : list (list nat * node)) : Prop :=
  StronglySorted before (map fst g) /\ forall p x, In (p, x) g <-> List.length p = k /\ node_at p root = Some x.

Lemma gen_start root : gen root 0 [([], root)].
Proof.
  split; [constructor; constructor|]. intros p x. split.
  - intros [E|[]]. injection E as <- <-. split; reflexivity.
  - intros [L E]. destruct p; [|discriminate]. cbn in E. injection E as ->. left. reflexivity.
Qed.

Lemma gen_next root k g : gen root k g -> gen root (S k) (next_generation g).
Proof.
  intros [S I]. split.
  - assert (L : Forall (fun px => List.length (fst px) = k) g). { apply Forall_forall. intros [p x] J. apply I in J. apply J. }
    clear I. induction g as [|[p x] g IH]; [constructor|]. cbn [map fst] in S. destruct (sorted_cons_inv _ _ _ S) as [S' F].
    pose proof (Forall_inv L) as LP. pose proof (Forall_inv_tail L) as LG. cbn [fst] in LP. unfold next_generation. cbn [flat_map]. rewrite map_app. apply sorted_app; [|apply IH; assumption|].
    + cbn [snd fst]. destruct (n_children x) as [cs|]; [|constructor]. rewrite map_map. cbn [fst].
      pose proof (enumerate_spec cs) as E. rewrite sorted_map in E. apply sorted_map. clear -E. induction E as [|a l S IH F]; constructor; [exact IH|].
      eapply Forall_impl; [|exact F]. intros [j c] H. cbn [fst] in *. apply before_app. apply before_cons. left. exact H.
    + intros a b IA IB. apply in_map_iff in IA. destruct IA as ([pa xa] & <- & IA). apply in_map_iff in IB. destruct IB as ([pb xb] & <- & IB).
      cbn [fst snd] in *. apply in_flat_map in IB. destruct IB as ([q y] & IQ & IB). cbn [fst snd] in IB.
      destruct (n_children x) as [cs|]; [|destruct IA]. destruct (n_children y) as [ds|]; [|destruct IB].
      apply in_map_iff in IA. destruct IA as ([i c] & EA & _). apply in_map_iff in IB. destruct IB as ([j d] & EB & _).
      cbn [fst snd] in *. injection EA as <- <-. injection EB as <- <-. apply before_ext.
      * rewrite Forall_forall in LG. rewrite LP. symmetry. exact (LG _ IQ).
      * rewrite Forall_forall in F. apply F. apply in_map_iff. exists (q, y). auto.
  - intros p x. unfold next_generation. rewrite in_flat_map. split.
    + intros ([q y] & IQ & H). apply I in IQ. destruct IQ as [LQ EQ]. cbn [fst snd] in H. destruct (n_children y) as [cs|] eqn:EC; [|destruct H].
      apply in_map_iff in H. destruct H as ([i c] & E & IE). cbn [fst snd] in E. injection E as <- <-. apply enumerate_in in IE.
      split; [rewrite app_length; cbn; lia|]. rewrite node_at_app, EQ, node_at_one, EC. exact IE.
    + intros [L E]. destruct (last_cases p) as [->|(q & i & ->)]; [discriminate|]. rewrite app_length in L. cbn in L.
      rewrite node_at_app in E. destruct (node_at q root) as [y|] eqn:EQ; [|discriminate]. rewrite node_at_one in E. destruct (n_children y) as [cs|] eqn:EC; [|discriminate].
      exists (q, y). split; [apply I; split; [lia|exact EQ]|]. cbn [fst snd]. rewrite EC. apply in_map_iff. exists (i, x). split; [reflexivity|]. apply enumerate_in. exact E.
Qed.

(** ** The nodes that are listed *)
Definition rank_before (a b : list nat * node) : Prop :=
  n_visits (snd b) < n_visits (snd a) \/ (n_visits (snd a) = n_visits (snd b) /\ before (fst a) (fst b)).
Lemma rank_trans a b c : rank_before a b -> rank_before b c -> rank_before a c.
Proof. unfold rank_before. intros [A|[A A']] [B|[B B']]; [left; lia|left; lia|left; lia|]. right. split; [lia|]. eapply before_trans; eauto. Qed.

Lemma nlargest_proof n g : StronglySorted before (map fst g) ->
  exists rest, Permutation g (nlargest n g ++ rest) /\ (List.length (nlargest n g) <= n)%nat /\
    (rest = [] \/ List.length (nlargest n g) = n) /\ forall a b, In a (nlargest n g) -> In b rest -> rank_before a b.
Proof.
  intros S. set (all := fold_right insert_visits [] g).
  assert (P : Permutation g all) by (apply (sort_perm insert_visits (fun x y => n_visits (snd x) <? n_visits (snd y))); reflexivity).
  assert (R : StronglySorted rank_before all).
  { apply (sort_sorted rank_before insert_visits (fun x y => n_visits (snd x) <? n_visits (snd y)) ltac:(reflexivity) ltac:(reflexivity) rank_trans (fun a b => before (fst a) (fst b))).
    - apply sorted_map. exact S.
    - intros x y B. unfold rank_before. destruct (Z.ltb_spec (n_visits (snd x)) (n_visits (snd y))); [left; assumption|].
      destruct (Z.eq_dec (n_visits (snd x)) (n_visits (snd y))); [right; auto|left; lia]. }
  exists (skipn n all). unfold nlargest. fold all. rewrite firstn_skipn. split; [exact P|]. split; [apply firstn_le_length|]. split.
  - destruct (Nat.le_gt_cases (List.length all) n) as [L|L]; [left; apply skipn_all2; exact L|right; apply firstn_length_le; lia].
  - intros a b. apply sorted_split. rewrite firstn_skipn. exact R.
Qed.

Lemma sorted_NoDup {A} (R : A -> A -> Prop) l : (forall x, ~ R x x) -> StronglySorted R l -> NoDup l.
Proof.
  intros I S. induction S as [|x l S IH F]; constructor; [|exact IH]. intros J. rewrite Forall_forall in F. exact (I x (F x J)).
Qed.

Lemma insert_path_sorted x l : StronglySorted (fun a b => before (fst a) (fst b)) l -> (forall y, In y l -> fst y <> fst x) ->
  StronglySorted (fun a b => before (fst a) (fst b)) (insert_path x l).
Proof.
  intros S N. apply (ins_sorted (fun a b => before (fst a) (fst b)) insert_path (fun x y => path_ltb (fst y) (fst x))); try reflexivity; [|intros y I|exact S].
  - intros a b c. apply before_trans.
  - destruct (path_ltb (fst y) (fst x)) eqn:E; [apply before_spec; exact E|]. destruct (before_total (fst x) (fst y)) as [H|[H|H]]; [exact H| |].
    + destruct (N y I). congruence.
    + apply before_spec in H. congruence.
Qed.

Lemma sort_paths_proof l : NoDup (map fst l) -> Permutation l (sort_paths l) /\ StronglySorted before (map fst (sort_paths l)).
Proof.
  intros N. assert (P : forall l, Permutation l (sort_paths l)).
  { intros l0. apply (sort_perm insert_path (fun x y => path_ltb (fst y) (fst x))); reflexivity. }
  split; [apply P|]. apply sorted_map. induction l as [|x l IH]; [constructor|]. cbn [map] in N. inversion N as [|? ? NI N']; subst.
  apply insert_path_sorted; [apply IH; exact N'|]. intros y I E. apply NI. rewrite <- E. apply in_map. eapply Permutation_in; [apply Permutation_sym, P|exact I].
Qed.

(** Selecting from a generation. *)
Lemma selected root k g n : gen root k g ->
  let sel := sort_paths (nlargest n g) in
  StronglySorted before (map fst sel) /\ (forall p x, In (p, x) sel -> List.length p = k /\ node_at p root = Some x) /\
  (List.length sel <= n)%nat /\
  (forall q y, List.length q = k -> node_at q root = Some y -> ~ In q (map fst sel) ->
     List.length sel = n /\ forall p x, In (p, x) sel -> rank_before (p, x) (q, y)).
Proof.
  intros [S I] sel. destruct (nlargest_proof n g S) as (rest & P & L & C & H).
  assert (NG : NoDup (map fst g)) by (eapply sorted_NoDup; [apply before_irrefl|exact S]).
  assert (NN : NoDup (map fst (nlargest n g))).
  { eapply Permutation_NoDup in NG; [|apply Permutation_map; exact P]. rewrite map_app in NG. clear -NG.
    induction (map fst (nlargest n g)) as [|x l IH]; [constructor|]. cbn in NG. inversion NG as [|? ? A B]; subst. constructor; [|apply IH; exact B].
    intros J. apply A. apply in_or_app. left. exact J. }
  destruct (sort_paths_proof _ NN) as [PS SS]. fold sel in PS, SS. split; [exact SS|]. split; [|split].
  - intros p x J. apply I. eapply Permutation_in; [apply Permutation_sym; exact P|]. apply in_or_app. left. eapply Permutation_in; [apply Permutation_sym; exact PS|exact J].
  - rewrite <- (Permutation_length PS). exact L.
  - intros q y LQ EQ NQ. assert (IQ : In (q, y) (nlargest n g ++ rest)) by (eapply Permutation_in; [exact P|apply I; auto]).
    apply in_app_or in IQ. destruct IQ as [IQ|IQ].
    + destruct NQ. apply in_map_iff. exists (q, y). split; [reflexivity|]. eapply Permutation_in; [exact PS|exact IQ].
    + rewrite <- (Permutation_length PS). destruct C as [->|C]; [destruct IQ|]. split; [exact C|].
      intros p x J. apply H; [|exact IQ]. eapply Permutation_in; [apply Permutation_sym; exact PS|exact J].
Qed.
