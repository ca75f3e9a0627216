(** Proofs about the schedulers (C22 - C24). *)
From Verif Require Import Base Bytes Dict SchedModel SchedSpec.
From Coq Require Import Permutation Sorting.Sorted.

Ltac inv H := inversion H; subst; clear H.

(** * Sets *)

Lemma nmem_spec x l : reflect (In x l) (nmem x l).
Proof.
  unfold nmem. destruct (existsb (Nat.eqb x) l) eqn:E; constructor.
  - apply existsb_exists in E. destruct E as (y & H & E). apply Nat.eqb_eq in E. congruence.
  - intro H. assert (existsb (Nat.eqb x) l = true); [|congruence].
    apply existsb_exists. exists x. split; auto. apply Nat.eqb_refl.
Qed.

Lemma sadd_new x l : ~ In x l -> sadd x l = x :: l.
Proof. unfold sadd. destruct (nmem_spec x l); tauto. Qed.

Lemma sdiscard_mid x a b : NoDup (a ++ x :: b) -> sdiscard x (a ++ x :: b) = a ++ b.
Proof.
  intros ND. apply NoDup_remove_2 in ND. unfold sdiscard. rewrite filter_app. simpl.
  rewrite Nat.eqb_refl. simpl.
  assert (forall l, ~ In x l -> filter (fun y => negb (Nat.eqb x y)) l = l) as F.
  { induction l as [|y l IH]; simpl; intros N; auto.
    destruct (Nat.eqb_spec x y); [subst; tauto|]. simpl. rewrite IH by tauto. reflexivity. }
  rewrite !F; auto; intro; apply ND; apply in_app_iff; auto.
Qed.

Lemma sunion_disjoint a b : NoDup (a ++ b) -> Permutation (sunion a b) (a ++ b).
Proof.
  intros ND. induction b as [|x b IH]; simpl; [rewrite app_nil_r; auto|].
  pose proof (NoDup_remove_1 _ _ _ ND) as ND1. pose proof (NoDup_remove_2 _ _ _ ND) as N2.
  rewrite sadd_new.
  - rewrite (IH ND1). apply Permutation_middle.
  - intro C. apply N2. eapply Permutation_in; [apply (IH ND1)|exact C].
Qed.

Lemma smin_spec x l : In (smin x l) (x :: l) /\ forall y, In y (x :: l) -> (smin x l <= y)%nat.
Proof.
  unfold smin. induction l as [|z l [H1 H2]]; simpl.
  - split; auto. intros y [->|[]]. auto.
  - split.
    + destruct (Nat.min_spec z (fold_right Nat.min x l)) as [[_ ->]|[_ ->]]; auto.
      destruct H1; auto.
    + intros y [->|[->|H]].
      * etransitivity; [apply Nat.le_min_r|]. apply H2. left. auto.
      * apply Nat.le_min_l.
      * etransitivity; [apply Nat.le_min_r|]. apply H2. right. auto.
Qed.

(** * Refinement of one scheduler *)

Definition R (s : ssched) (b : bag) : Prop :=
  outstanding s = b_out b /\
  Permutation (b_fixed b ++ b_out b ++ to_reissue s) (seq 0 (next_new s)) /\
  issued s = issued_count b /\ fixed s = fixed_count b.

Lemma R_NoDup s b : R s b -> NoDup (b_fixed b ++ b_out b ++ to_reissue s).
Proof. intros (_ & P & _). eapply Permutation_NoDup; [symmetry; exact P|apply seq_NoDup]. Qed.

Lemma R_lt s b t : R s b -> ((t < next_new s)%nat <-> taken b t \/ In t (to_reissue s)).
Proof.
  intros (_ & P & _). unfold taken. split.
  - intros L. assert (In t (b_fixed b ++ b_out b ++ to_reissue s)) as H.
    { eapply Permutation_in; [symmetry; exact P|]. apply in_seq. lia. }
    rewrite !in_app_iff in H. tauto.
  - intros H. assert (In t (b_fixed b ++ b_out b ++ to_reissue s)) as H2.
    { rewrite !in_app_iff. tauto. }
    eapply Permutation_in in H2; [|exact P]. apply in_seq in H2. lia.
Qed.

Lemma NoDup_app_inv {A} (a b : list A) : NoDup (a ++ b) ->
  NoDup a /\ NoDup b /\ forall x, In x a -> ~ In x b.
Proof.
  induction a as [|x a IH]; simpl; intros ND.
  - repeat split; auto; constructor.
  - inv ND. destruct (IH H2) as (A1 & A2 & A3). repeat split; auto.
    + constructor; auto. intro C. apply H1. apply in_app_iff. auto.
    + intros y [->|Hy]; auto. intro C. apply H1. apply in_app_iff. auto.
Qed.

Lemma R_bag_ok s b : R s b -> bag_ok b.
Proof.
  intros H. apply R_NoDup in H. rewrite app_assoc in H. apply NoDup_app_inv in H. apply H.
Qed.

Lemma R_reissue_free s b t : R s b -> In t (to_reissue s) -> ~ taken b t.
Proof.
  intros H Ht. apply R_NoDup in H. rewrite app_assoc in H. apply NoDup_app_inv in H.
  destruct H as (_ & _ & H). intros T. apply (H t); auto. apply in_app_iff. exact T.
Qed.

Lemma R_init : R new_sched empty_bag.
Proof. repeat split; auto. Qed.

Lemma R_issue s b s' t : R s b -> issue s = (s', t) ->
  next_token_of b t /\ R s' (mkB (b_fixed b) (t :: b_out b)).
Proof.
  intros H E. pose proof (R_NoDup s b H) as ND. pose proof H as H0.
  destruct H as (Ho & P & Hi & Hf). unfold issue in E.
  destruct (to_reissue s) as [|x r] eqn:Er.
  - inv E. assert (~ taken b (next_new s)) as NT.
    { intro T. assert (next_new s < next_new s)%nat; [|lia]. apply (R_lt s b _ H0). auto. }
    split.
    + split; auto. intros u L. apply (R_lt s b u H0) in L. rewrite Er in L. simpl in L. tauto.
    + unfold R. cbn [outstanding to_reissue next_new issued fixed b_fixed b_out].
      rewrite sadd_new by (rewrite Ho; unfold taken in NT; tauto).
      rewrite app_nil_r in *. repeat split.
      * congruence.
      * rewrite <- Permutation_middle, P. rewrite seq_S. simpl. apply Permutation_cons_append.
      * rewrite Hi. unfold issued_count. cbn [b_fixed b_out List.length]. lia.
      * exact Hf.
  - pose proof (smin_spec x r) as [M1 M2]. set (m := smin x r) in *. rewrite <- Er in *.
    injection E as <- <-.
    assert (~ taken b m) as NT by (apply (R_reissue_free s b m H0); exact M1).
    assert (m < next_new s)%nat as Lm by (apply (R_lt s b m H0); auto).
    split.
    + split; auto. intros u L. assert (u < next_new s)%nat as L2 by lia.
      apply (R_lt s b u H0) in L2. destruct L2 as [T|C]; auto. apply M2 in C. lia.
    + unfold R. cbn [outstanding to_reissue next_new issued fixed b_fixed b_out].
      rewrite sadd_new by (rewrite Ho; unfold taken in NT; tauto).
      apply in_split in M1. destruct M1 as (r1 & r2 & Em). rewrite Em in *.
      rewrite sdiscard_mid.
      * repeat split.
        -- congruence.
        -- rewrite <- P. apply Permutation_app_head. simpl.
           rewrite app_assoc. rewrite (app_assoc (b_out b) r1 (m :: r2)).
           rewrite <- Permutation_middle. reflexivity.
        -- rewrite Hi. unfold issued_count. cbn [b_fixed b_out List.length]. lia.
        -- exact Hf.
      * rewrite app_assoc in ND. apply NoDup_app_inv in ND. apply ND.
Qed.

Lemma R_fix s b s' t r : R s b -> fix_token s t = (s', r) ->
  (exists o1 o2, b_out b = o1 ++ t :: o2 /\ r = Ok tt /\ R s' (mkB (t :: b_fixed b) (o1 ++ o2))) \/
  (~ In t (b_out b) /\ r = Err KeyError /\ s' = s).
Proof.
  intros H E. pose proof (R_NoDup s b H) as ND. destruct H as (Ho & P & Hi & Hf).
  unfold fix_token in E. destruct (nmem_spec t (outstanding s)) as [I|N]; inv E.
  - left. rewrite Ho in I. apply in_split in I. destruct I as (o1 & o2 & Eo).
    exists o1, o2. repeat split; auto.
    + cbn [outstanding b_out]. rewrite Ho, Eo. apply sdiscard_mid.
      rewrite <- Eo. apply NoDup_app_inv in ND. destruct ND as (_ & ND & _).
      apply NoDup_app_inv in ND. apply ND.
    + cbn [to_reissue b_out b_fixed next_new]. rewrite <- P, Eo. simpl.
      rewrite <- app_assoc. simpl. rewrite <- app_assoc.
      cbn [app]. rewrite (app_assoc (b_fixed b) o1 (t :: _)). rewrite <- Permutation_middle.
      rewrite <- app_assoc. reflexivity.
    + cbn [issued]. rewrite Hi. unfold issued_count. rewrite Eo. cbn [b_fixed b_out List.length].
      rewrite !app_length. cbn [List.length]. lia.
    + cbn [fixed]. rewrite Hf. unfold fixed_count. cbn [b_fixed List.length]. lia.
  - right. rewrite <- Ho. auto.
Qed.

Lemma R_rollback s b : R s b -> R (rollback s) (mkB (b_fixed b) []).
Proof.
  intros H. pose proof (R_NoDup s b H) as ND. destruct H as (Ho & P & Hi & Hf).
  unfold rollback, R. cbn [outstanding to_reissue next_new issued fixed b_fixed b_out].
  repeat split; auto.
  - cbn [app]. rewrite sunion_disjoint.
    + rewrite <- P. apply Permutation_app_head. rewrite Ho. apply Permutation_app_comm.
    + rewrite Ho. apply NoDup_app_inv in ND. destruct ND as (_ & ND & _).
      eapply Permutation_NoDup; [apply Permutation_app_comm|]. exact ND.
  - rewrite Hi, Ho. unfold issued_count. cbn [b_fixed b_out List.length]. lia.
Qed.

Lemma R_pickle s b : R s b -> R (sched_setstate (sched_getstate s)) b.
Proof.
  intros (Ho & P & Hi & Hf). unfold sched_getstate, sched_setstate, R.
  cbn [outstanding to_reissue next_new issued fixed].
  pose proof (Permutation_length P) as L. rewrite !app_length, seq_length in L.
  repeat split; auto; unfold issued_count, fixed_count; rewrite ?Ho; lia.
Qed.

(** * Histories of one scheduler *)

Definition RS (st : sstate) (ab : bag * bag) : Prop :=
  R (fst st) (fst ab) /\ exists s, snd st = sched_getstate s /\ R s (snd ab).

Lemma RS_step st ab e st' a : RS st ab -> sstep st e = (st', a) ->
  exists ab', astep ab e a ab' /\ RS st' ab'.
Proof.
  intros [H (sv & Ev & Hv)] E. destruct st as [s v]. destruct ab as [b bv]. cbn [fst snd] in *.
  destruct e as [|t| | |]; cbn [sstep] in E.
  - destruct (issue s) as [s1 t] eqn:Ei. inv E. destruct (R_issue _ _ _ _ H Ei) as [N H'].
    eexists. split; [constructor; exact N|]. split; [exact H'|]. exists sv; auto.
  - destruct (fix_token s t) as [s1 r] eqn:Ef. destruct (R_fix _ _ _ _ _ H Ef) as [(o1 & o2 & Eo & -> & H')|(N & -> & ->)].
    + inv E. eexists. split; [eapply as_fix; exact Eo|]. split; [exact H'|]. exists sv; auto.
    + inv E. eexists. split; [apply as_fix_error; exact N|]. split; [exact H|]. exists sv; auto.
  - inv E. eexists. split; [constructor|]. split; [apply R_rollback; exact H|]. exists sv; auto.
  - inv E. eexists. split; [constructor|]. split; [exact H|]. exists s; auto.
  - inv E. eexists. split; [constructor|]. split; [|exists sv; auto].
    cbn [fst]. apply (R_rollback _ bv). apply R_pickle. exact Hv.
Qed.

Lemma RS_run : forall es st ab st' os, RS st ab -> srun st es = (st', os) ->
  exists ab', arun ab es os ab' /\ RS st' ab'.
Proof.
  induction es as [|e es IH]; intros st ab st' os H E; cbn [srun] in E.
  - inv E. exists ab. split; [constructor|auto].
  - destruct (sstep st e) as [st1 a] eqn:Es. destruct (srun st1 es) as [st2 os2] eqn:Er. inv E.
    destruct (RS_step _ _ _ _ _ H Es) as (ab1 & S1 & H1).
    destruct (IH _ _ _ _ H1 Er) as (ab2 & S2 & H2).
    exists ab2. split; [|exact H2].
    destruct H1 as [(_ & _ & -> & ->) _]. econstructor; eauto.
Qed.

Lemma RS_init : RS sinit (empty_bag, empty_bag).
Proof. split; [apply R_init|]. exists new_sched. split; [reflexivity|apply R_init]. Qed.

Lemma C22_refines_proof es st os : srun sinit es = (st, os) ->
  exists b v, arun (empty_bag, empty_bag) es os (b, v) /\ bag_ok b /\ bag_ok v.
Proof.
  intros E. destruct (RS_run _ _ _ _ _ RS_init E) as ([b v] & A & [H (s & _ & Hv)]).
  exists b, v. split; [exact A|]. split; eapply R_bag_ok; eauto.
Qed.

(** ** Consequences *)

Definition tokens (os : list sobs) : list nat :=
  flat_map (fun o => match fst (fst o) with AnsToken t => [t] | _ => [] end) os.

Definition plain (e : sevent) : Prop :=
  match e with EvIssue | EvFix _ | EvSave => True | _ => False end.

Lemma arun_nil_inv st os st2 : arun st [] os st2 -> os = [] /\ st2 = st.
Proof. intros A. inversion A; auto. Qed.

Lemma arun_cons_inv st e es os st2 : arun st (e :: es) os st2 ->
  exists a b1 v1 os1, os = (a, issued_count b1, fixed_count b1) :: os1 /\
    astep st e a (b1, v1) /\ arun (b1, v1) es os1 st2.
Proof. intros A. inversion A as [|? ? a [b1 v1] ? os1 ? S1 A1]; subst. exists a, b1, v1, os1. auto. Qed.

Lemma astep_inv b v e a b1 v1 : astep (b, v) e a (b1, v1) ->
  match e with
  | EvIssue => exists t, a = AnsToken t /\ next_token_of b t /\ b1 = mkB (b_fixed b) (t :: b_out b) /\ v1 = v
  | EvFix t => (exists o1 o2, a = AnsDone /\ b_out b = o1 ++ t :: o2 /\
                  b1 = mkB (t :: b_fixed b) (o1 ++ o2) /\ v1 = v) \/
               (a = AnsError /\ ~ In t (b_out b) /\ b1 = b /\ v1 = v)
  | EvRollback => a = AnsDone /\ b1 = mkB (b_fixed b) [] /\ v1 = v
  | EvSave => a = AnsDone /\ b1 = b /\ v1 = b
  | EvRestart => a = AnsDone /\ b1 = mkB (b_fixed v) [] /\ v1 = v
  end.
Proof. intros A. inversion A; subst; eauto 10. Qed.

Lemma tokens_cons a i f os : tokens ((a, i, f) :: os) =
  match a with AnsToken t => [t] | _ => [] end ++ tokens os.
Proof. reflexivity. Qed.

Lemma plain_tokens : forall es b v os b' v', arun (b, v) es os (b', v') -> Forall plain es ->
  bag_ok b ->
  NoDup (tokens os) /\ (forall t, In t (tokens os) -> ~ taken b t) /\
  (forall t, taken b' t <-> taken b t \/ In t (tokens os)).
Proof.
  induction es as [|e es IH]; intros b v os b' v' A P B.
  - apply arun_nil_inv in A. destruct A as [-> E]. inversion E; subst.
    split; [apply NoDup_nil|]. split; simpl; tauto.
  - inversion P as [|? ? P1 P2]; subst.
    apply arun_cons_inv in A. destruct A as (a & b1 & v1 & os1 & -> & S1 & A1).
    apply astep_inv in S1. rewrite tokens_cons.
    assert (bag_ok b1 /\ (forall t, taken b1 t <-> taken b t \/ a = AnsToken t) /\
            (forall t, a = AnsToken t -> ~ taken b t)) as (B1 & T1 & T0).
    { destruct e as [|t| | |]; try contradiction P1.
      - destruct S1 as (t & -> & N & -> & ->). split; [|split].
        + unfold bag_ok in *. cbn [b_fixed b_out].
          eapply Permutation_NoDup; [apply Permutation_middle|]. constructor; auto.
          rewrite in_app_iff. exact (proj1 N).
        + intros u. unfold taken. cbn [b_fixed b_out]. simpl. intuition congruence.
        + intros u E. inversion E; subst. apply N.
      - destruct S1 as [(o1 & o2 & -> & Eo & -> & ->)|(-> & N & -> & ->)].
        + split; [|split].
          * unfold bag_ok in *. cbn [b_fixed b_out]. rewrite Eo in B.
            eapply Permutation_NoDup; [|exact B].
            rewrite app_assoc, <- Permutation_middle, <- app_assoc. reflexivity.
          * intros u. unfold taken. rewrite Eo. cbn [b_fixed b_out]. rewrite !in_app_iff. simpl.
            rewrite ?in_app_iff. intuition congruence.
          * discriminate.
        + split; [auto|split; [|discriminate]]. intuition congruence.
      - destruct S1 as (-> & -> & ->). split; [auto|split; [|discriminate]]. intuition congruence. }
    destruct (IH _ _ _ _ _ A1 P2 B1) as (ND & F & T).
    destruct a as [t| |].
    + cbn [app]. split; [|split].
      * constructor; auto. intro C. apply F in C. apply C. apply T1. auto.
      * intros u [<-|C]; auto. intro Tb. apply F in C. apply C. apply T1. auto.
      * intros u. rewrite T, T1. simpl. intuition congruence.
    + simpl. split; [auto|split].
      * intros u C Tb. apply F in C. apply C. apply T1. auto.
      * intros u. rewrite T, T1. intuition congruence.
    + simpl. split; [auto|split].
      * intros u C Tb. apply F in C. apply C. apply T1. auto.
      * intros u. rewrite T, T1. intuition congruence.
Qed.

Lemma C22_never_twice_proof es1 es2 st1 os1 st2 os2 :
  srun sinit es1 = (st1, os1) -> srun st1 es2 = (st2, os2) -> Forall plain es2 ->
  NoDup (tokens os2).
Proof.
  intros E1 E2 P. destruct (RS_run _ _ _ _ _ RS_init E1) as ([b v] & A1 & H1).
  destruct (RS_run _ _ _ _ _ H1 E2) as ([b' v'] & A2 & H2).
  apply (plain_tokens _ _ _ _ _ _ A2 P). eapply R_bag_ok. apply H1.
Qed.

(** * C23: recovery *)

Lemma issues_increasing n : forall b v os b' v', arun (b, v) (repeat EvIssue n) os (b', v') ->
  StronglySorted lt (tokens os) /\
  List.length (tokens os) = n /\
  (forall t, In t (tokens os) -> ~ taken b t) /\
  (forall u t, ~ taken b u -> ~ In u (tokens os) -> In t (tokens os) -> (t < u)%nat).
Proof.
  induction n as [|n IH]; cbn [repeat]; intros b v os b' v' A.
  - apply arun_nil_inv in A. destruct A as [-> E]. simpl.
    split; [constructor|]. split; [auto|]. split; tauto.
  - apply arun_cons_inv in A. destruct A as (a & b1 & v1 & os1 & -> & S1 & A1).
    apply astep_inv in S1. destruct S1 as (t & -> & [Nt Lt] & Eb & ->).
    destruct (IH _ _ _ _ _ A1) as (SS & L1 & F1 & M1).
    assert (forall u, taken b1 u <-> taken b u \/ u = t) as T1.
    { intros u. unfold taken. rewrite Eb. cbn [b_fixed b_out]. simpl. intuition congruence. }
    rewrite tokens_cons. cbn [app].
    assert (forall u, ~ taken b u -> u <> t -> (t < u)%nat) as LT.
    { intros u Nu Ne. destruct (Nat.lt_trichotomy u t) as [C|[C|C]]; auto; [|congruence].
      apply Lt in C. contradiction. }
    split; [|split; [|split]].
    + constructor; auto. rewrite Forall_forall. intros u Hu. apply LT.
      * intro C. apply (F1 u Hu). apply T1. auto.
      * intros ->. apply (F1 t Hu). apply T1. auto.
    + simpl. lia.
    + intros u [<-|Hu]; auto. intro C. apply (F1 u Hu). apply T1. auto.
    + intros u w Nu Ni [<-|Hw].
      * apply LT; auto. intros ->. apply Ni. left. auto.
      * apply M1; auto; [|intro C; apply Ni; right; auto].
        rewrite T1. intros [C|C]; [auto|]. apply Ni. left. auto.
Qed.

Lemma C23_recovery_proof es n st os st' os' :
  srun sinit es = (st, os) ->
  srun st (EvRestart :: repeat EvIssue n) = (st', os') ->
  exists b v,
    arun (empty_bag, empty_bag) es os (b, v) /\
    List.length (tokens os') = n /\
    StronglySorted lt (tokens os') /\
    (forall t, In t (tokens os') -> ~ In t (b_fixed v)) /\
    (forall u t, ~ In u (b_fixed v) -> ~ In u (tokens os') -> In t (tokens os') -> (t < u)%nat).
Proof.
  intros E1 E2. destruct (RS_run _ _ _ _ _ RS_init E1) as ([b v] & A1 & H1).
  destruct (RS_run _ _ _ _ _ H1 E2) as ([b' v'] & A2 & H2).
  exists b, v. split; [exact A1|].
  apply arun_cons_inv in A2. destruct A2 as (a & b1 & v1 & os1 & -> & S1 & A2).
  apply astep_inv in S1. destruct S1 as (-> & -> & ->).
  destruct (issues_increasing n _ _ _ _ _ A2) as (SS & L1 & F1 & M1).
  rewrite tokens_cons. cbn [app].
  split; [auto|]. split; [auto|]. split.
  - intros t Ht C. apply (F1 t Ht). left. exact C.
  - intros u t Nu Ni Ht. apply M1; auto. unfold taken. cbn [b_fixed b_out]. simpl. tauto.
Qed.

(** A token reported fixed before the last save is never issued again, whatever happens
    later. *)
Lemma fixed_saved_forever : forall es b v os b' v', arun (b, v) es os (b', v') ->
  forall t, In t (b_fixed b) -> In t (b_fixed v) ->
  ~ In t (tokens os) /\ In t (b_fixed b') /\ In t (b_fixed v').
Proof.
  induction es as [|e es IH]; intros b v os b' v' A t Hb Hv.
  - apply arun_nil_inv in A. destruct A as [-> E]. inversion E; subst. simpl; auto.
  - apply arun_cons_inv in A. destruct A as (a & b1 & v1 & os1 & -> & S1 & A1).
    apply astep_inv in S1.
    assert (In t (b_fixed b1) /\ In t (b_fixed v1) /\ a <> AnsToken t) as (B1 & V1 & N1).
    { destruct e as [|u| | |].
      - destruct S1 as (u & -> & N & -> & ->). repeat split; auto.
        intros E. inversion E; subst. apply N. left. auto.
      - destruct S1 as [(o1 & o2 & -> & Eo & -> & ->)|(-> & N & -> & ->)];
          repeat split; auto; try discriminate. right. auto.
      - destruct S1 as (-> & -> & ->). repeat split; auto; discriminate.
      - destruct S1 as (-> & -> & ->). repeat split; auto; discriminate.
      - destruct S1 as (-> & -> & ->). repeat split; auto; discriminate. }
    destruct (IH _ _ _ _ _ A1 t B1 V1) as (X & Y & Z). split; auto.
    rewrite tokens_cons, in_app_iff. intros [C|C]; auto.
    destruct a; simpl in C; intuition congruence.
Qed.

Lemma C23_fixed_forever_proof es1 t es2 st1 os1 st2 i f o2 st3 os3 :
  srun sinit es1 = (st1, os1) ->
  srun st1 [EvFix t; EvSave] = (st2, (AnsDone, i, f) :: o2) ->
  srun st2 es2 = (st3, os3) ->
  ~ In t (tokens os3).
Proof.
  intros E1 E2 E3. destruct (RS_run _ _ _ _ _ RS_init E1) as ([b v] & A1 & H1).
  destruct (RS_run _ _ _ _ _ H1 E2) as ([b2 v2] & A2 & H2).
  destruct (RS_run _ _ _ _ _ H2 E3) as ([b3 v3] & A3 & H3).
  apply arun_cons_inv in A2. destruct A2 as (a & b1 & v1 & os4 & E4 & S1 & A2).
  injection E4 as <- _ _ <-.
  apply arun_cons_inv in A2. destruct A2 as (a & b4 & v4 & os5 & -> & S2 & A2).
  apply arun_nil_inv in A2. destruct A2 as [-> E5]. inversion E5; subst.
  apply astep_inv in S1. apply astep_inv in S2. destruct S2 as (-> & -> & ->).
  destruct S1 as [(p1 & p2 & _ & Eo & -> & ->)|(C & _)]; [|discriminate].
  apply (fixed_saved_forever _ _ _ _ _ _ A3 t); left; reflexivity.
Qed.

(** ** Playing the games through after a crash *)
Lemma run_games_spec n : forall s b s' ts, R s b -> run_games n s = (s', ts) ->
  exists f', R s' (mkB f' (b_out b)) /\ Permutation f' (map fst ts ++ b_fixed b) /\
    List.length ts = n /\ Forall (fun x => snd x = Ok tt) ts /\
    StronglySorted lt (map fst ts) /\
    (forall t, In t (map fst ts) -> ~ taken b t) /\
    (forall u t, ~ taken b u -> ~ In u (map fst ts) -> In t (map fst ts) -> (t < u)%nat).
Proof.
  induction n as [|n IH]; intros s b s' ts H E; cbn [run_games] in E.
  - injection E as <- <-. exists (b_fixed b). destruct b as [f o]. cbn [b_fixed b_out] in *.
    split; [exact H|]. simpl. repeat split; auto; try constructor; tauto.
  - destruct (issue s) as [s1 t] eqn:Ei. destruct (fix_token s1 t) as [s2 r] eqn:Ef.
    destruct (run_games n s2) as [s3 ts3] eqn:Er. injection E as <- <-.
    destruct (R_issue _ _ _ _ H Ei) as [[Nt Lt] H1].
    destruct (R_fix _ _ _ _ _ H1 Ef) as [(o1 & o2 & Eo & -> & H2)|(N & _ & _)];
      [|exfalso; apply N; left; reflexivity].
    cbn [b_fixed b_out] in *.
    assert (o1 = [] /\ o2 = b_out b) as [-> ->].
    { destruct o1 as [|x o1]; simpl in Eo.
      - injection Eo as ->. auto.
      - injection Eo as -> Eo. exfalso. apply Nt. right. rewrite Eo. apply in_app_iff. right. left. auto. }
    cbn [app] in H2.
    destruct (IH _ _ _ _ H2 Er) as (f' & HR & P & L & OKs & SS & F1 & M1).
    cbn [b_fixed b_out] in *. exists f'. split; [exact HR|].
    assert (forall u, taken (mkB (t :: b_fixed b) (b_out b)) u <-> taken b u \/ u = t) as T1.
    { intros u. unfold taken. cbn [b_fixed b_out]. simpl. intuition congruence. }
    assert (forall u, ~ taken b u -> u <> t -> (t < u)%nat) as LT.
    { intros u Nu Ne. destruct (Nat.lt_trichotomy u t) as [C|[C|C]]; auto; [|congruence].
      apply Lt in C. contradiction. }
    cbn [map fst snd List.length].
    split; [rewrite P; rewrite <- Permutation_middle; reflexivity|].
    split; [lia|]. split; [constructor; auto|]. split; [|split].
    + constructor; auto. rewrite Forall_forall. intros u Hu. apply LT.
      * intro C. apply (F1 u Hu). apply T1. auto.
      * intros ->. apply (F1 t Hu). apply T1. auto.
    + intros u [<-|Hu]; auto. intro C. apply (F1 u Hu). apply T1. auto.
    + intros u w Nu Ni [<-|Hw].
      * apply LT; auto. intros ->. apply Ni. left. auto.
      * apply M1; auto; [|intro C; apply Ni; right; auto].
        rewrite T1. intros [C|C]; [auto|]. apply Ni. left. auto.
Qed.

Lemma NoDup_below (l : list nat) n : NoDup l -> List.length l = n -> (forall x, In x l -> (x < n)%nat) ->
  Permutation l (seq 0 n).
Proof.
  intros ND L B. apply NoDup_Permutation_bis; auto.
  - rewrite seq_length. lia.
  - intros x H. apply in_seq. apply B in H. lia.
Qed.

Lemma C23_play_through_proof es st os n s' ts :
  srun sinit es = (st, os) ->
  run_games n (fst (fst (sstep st EvRestart))) = (s', ts) ->
  exists b v, arun (empty_bag, empty_bag) es os (b, v) /\
    let m := (List.length (b_fixed v) + n)%nat in
    Forall (fun x => snd x = Ok tt) ts /\ issued s' = Z.of_nat m /\ fixed s' = Z.of_nat m /\
    ((forall t, In t (b_fixed v) -> (t < m)%nat) ->
     Permutation (map fst ts ++ b_fixed v) (seq 0 m)).
Proof.
  intros E1 E2. destruct (RS_run _ _ _ _ _ RS_init E1) as ([b v] & A1 & H1).
  destruct (sstep st EvRestart) as [st1 a] eqn:E3.
  destruct (RS_step _ _ _ _ _ H1 E3) as ([b1 v1] & S1 & H2).
  apply astep_inv in S1. destruct S1 as (-> & -> & ->). cbn [fst] in E2.
  exists b, v. split; [exact A1|]. cbv zeta.
  destruct H2 as [H2 _]. cbn [fst] in H2.
  destruct (run_games_spec n _ _ _ _ H2 E2) as (f' & HR & P & L & OKs & SS & F1 & M1).
  cbn [b_fixed b_out] in *.
  pose proof (Permutation_length P) as LP. rewrite app_length, map_length, L in LP.
  pose proof (R_bag_ok _ _ HR) as BO. unfold bag_ok in BO. cbn [b_fixed b_out] in BO.
  rewrite app_nil_r in BO.
  split; [exact OKs|]. split; [|split].
  - destruct HR as (_ & _ & -> & _). unfold issued_count. cbn [b_fixed b_out List.length]. lia.
  - destruct HR as (_ & _ & _ & ->). unfold fixed_count. cbn [b_fixed b_out]. lia.
  - intros B. set (m := (List.length (b_fixed v) + n)%nat) in *.
    assert (NoDup (map fst ts ++ b_fixed v)) as ND by (eapply Permutation_NoDup; eauto).
    apply NoDup_below; auto.
    + rewrite app_length, map_length. unfold m. lia.
    + intros x Hx. apply in_app_iff in Hx. destruct Hx as [Hx|Hx]; auto.
      destruct (Nat.lt_ge_cases x m) as [C|C]; auto. exfalso.
      (* some u < m is missing, and then x < u *)
      assert (exists u, (u < m)%nat /\ ~ In u (map fst ts ++ b_fixed v)) as (u & Lu & Nu).
      { destruct (Forall_Exists_dec (fun u => In u (map fst ts ++ b_fixed v))
                    (fun u => in_dec Nat.eq_dec u _) (seq 0 m)) as [A|A].
        - exfalso. rewrite Forall_forall in A.
          assert (incl (x :: seq 0 m) (map fst ts ++ b_fixed v)) as I.
          { intros y [<-|Hy]; auto. apply in_app_iff; auto. }
          apply NoDup_incl_length in I.
          + simpl in I. rewrite seq_length, app_length, map_length in I. unfold m in I. lia.
          + constructor; [|apply seq_NoDup]. intro Q. apply in_seq in Q. lia.
        - apply Exists_exists in A. destruct A as (u & Hu & Nu). exists u. split; auto.
          apply in_seq in Hu. lia. }
      rewrite in_app_iff in Nu.
      assert (x < u)%nat; [|lia]. apply M1; auto. unfold taken. cbn [b_fixed b_out]. simpl. tauto.
Qed.

Lemma C22_fix_error_proof es st os t st' i f :
  srun sinit es = (st, os) -> srun st [EvFix t] = (st', [(AnsError, i, f)]) -> st' = st.
Proof.
  intros E1 E2. destruct st as [s v]. cbn [srun sstep] in E2. unfold fix_token in E2.
  destruct (nmem t (outstanding s)); cbn in E2; inversion E2; reflexivity.
Qed.

