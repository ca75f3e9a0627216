(** What the cross-entropy tuner's abstract machine guarantees; the ringmaster (C43). *)
From Coq Require Import QArith Permutation.
From Verif Require Import Base Bytes PyStr Dict JobModel JobSpec RingModel RingSpec SchedModel SchedSpec SchedProofs GroupProofs
  CemModel CemSpec CemDistProofs CemProofs CemTunerProofs CemRing.
Open Scope Z_scope.

(** ** Game ids *)
Lemma sep_inj {A} (c : A) a b a' b' : ~ In c a -> ~ In c a' -> a ++ c :: b = a' ++ c :: b' -> a = a' /\ b = b'.
Proof.
  revert a'. induction a as [|x a IH]; intros [|y a'] N N' E; cbn in E.
  - injection E as E. auto.
  - exfalso. apply N'. left. congruence.
  - exfalso. apply N. left. congruence.
  - assert (x = y) by congruence. subst y. destruct (IH a') as [E1 E2]; [intros X; apply N; right; exact X|intros X; apply N'; right; exact X|congruence|].
    subst. auto.
Qed.
Lemma digits_no c z : 0 <= z -> is_digit c = false -> ~ In c (str_int z).
Proof.
  intros Z D I. pose proof (str_int_nonneg z Z) as (_ & H & _). rewrite forallb_forall in H. specialize (H c I). congruence.
Qed.
Lemma game_id_inj g i t g' i' t' : game_id g i t = game_id g' i' t' -> (g, i, t) = (g', i', t').
Proof.
  unfold game_id, candidate_code. rewrite <- !app_assoc. intros E. cbn [str list_ascii_of_string app] in E. injection E as E.
  apply sep_inj in E; [|apply digits_no; [lia|reflexivity]|apply digits_no; [lia|reflexivity]]. destruct E as [E1 E].
  apply sep_inj in E; [|apply digits_no; [lia|reflexivity]|apply digits_no; [lia|reflexivity]]. destruct E as [E2 E3].
  apply str_int_inj in E1, E2, E3. apply Nat2Z.inj in E1, E2, E3. congruence.
Qed.

Lemma NoDup_app_disj' {A} (a b : list A) : NoDup a -> NoDup b -> (forall x, In x a -> ~ In x b) -> NoDup (a ++ b).
Proof.
  intros NA NB H. induction NA as [|x a N NA IH]; [exact NB|]. cbn. constructor.
  - intros I. apply in_app_or in I. destruct I as [I|I]; [contradiction|]. exact (H x (or_introl eq_refl) I).
  - apply IH. intros y Y. apply H. right. exact Y.
Qed.

Section Machine.
Context {V P : Type}.
Variable possible : Q -> Q -> Q -> Prop.
Variable cf : cconfig V P.
Hypothesis cf_ok : cusable cf.

Lemma steps_lok l0 (es : list (cevent P)) l v : initial possible cf l0 -> csteps possible cf (l0, None) es (l, v) -> LOKs cf (l, v).
Proof. intros I C. eapply csteps_lok; [exact cf_ok|exact C|]. split; [eapply initial_lok; eauto|discriminate]. Qed.

Lemma rounds_nodup i l : NoDup l -> NoDup (rounds i l).
Proof.
  induction 1 as [|[j t] l N ND IH]; [constructor|]. rewrite rounds_cons. destruct (Nat.eqb_spec j i) as [->|]; cbn; [|exact IH]. constructor; [|exact IH].
  rewrite rounds_in. exact N.
Qed.

(** A complete generation consists of all the games. *)
Lemma complete_perm (gs : list (nat * nat)) n b : NoDup gs -> (forall i t, In (i, t) gs -> (i < n)%nat /\ (t < b)%nat) ->
  (forall i, (i < n)%nat -> (b <= List.length (filter (of_candidate i) gs))%nat) -> Permutation gs (list_prod (seq 0 n) (seq 0 b)).
Proof.
  intros ND RG C. apply NoDup_Permutation; [exact ND| |].
  - clear. generalize 0%nat at 1. induction n as [|n IH]; intros k; cbn; [constructor|].
    apply NoDup_app_disj'.
    + apply FinFun.Injective_map_NoDup; [intros x y E; congruence|apply seq_NoDup].
    + apply IH.
    + intros x I1 I2. apply in_map_iff in I1. destruct I1 as (y & <- & _). apply in_prod_iff in I2. destruct I2 as [I2 _]. apply in_seq in I2. lia.
  - intros [i t]. rewrite in_prod_iff, !in_seq. split; [intros I; apply RG in I; lia|]. intros [LI LT].
    assert (incl (seq 0 b) (rounds i gs)) as IN.
    { apply NoDup_length_incl; [apply rounds_nodup; exact ND| |].
      - rewrite seq_length, rounds_length. apply C. lia.
      - intros u U. apply rounds_in in U. apply RG in U. apply in_seq. lia. }
    apply rounds_in. apply IN. apply in_seq. lia.
Qed.

Lemma lok_complete l : LOK cf l -> is_complete cf l -> Permutation (map game_of (cl_done l)) (list_prod (seq 0 (cc_samples cf)) (seq 0 (Z.to_nat (cc_batch_size cf)))).
Proof.
  intros L C. pose proof (complete_full cf l L C) as EO. pose proof (lo_nodup _ _ L) as ND. pose proof (lo_range _ _ L) as RA. unfold games in ND, RA. rewrite EO, app_nil_r in *.
  destruct cf_ok as (_ & _ & _ & _ & _ & B & _). apply complete_perm; [exact ND| |].
  - intros i t I. apply RA in I. lia.
  - intros i LI. specialize (C i LI). unfold finished in C. lia.
Qed.

(** The end of a generation. *)
Lemma generation_end l v r a l' v' : LOK cf l -> cstep possible cf (l, v) (CResulted r a) (l', v') -> cl_gen l' <> cl_gen l ->
  exists i code t n, cr_data r = (i, code, t) /\ a = Ok tt /\ cl_out l = [(i, t)] /\ half_points r n /\ cl_gen l' = S (cl_gen l) /\ (cl_gen l < cc_generations cf)%nat /\
    Permutation ((i, t) :: map game_of (cl_done l)) (list_prod (seq 0 (cc_samples cf)) (seq 0 (Z.to_nat (cc_batch_size cf)))) /\
    learned cf (end_game i t n [] l) (cl_dist l').
Proof.
  intros L C NG. inversion C as [| |? ? ? ? ? ? ? ? ? l1 ED EO HP E1 NC|? ? ? i code t n l1 d ss ED EO HP E1 CO LE NE DR|? ? ? i code t n l1 d ED EO HP E1 CO LE NE|? ? ? i code t ED NI| | | | |]; subst; cbn [cl_gen end_game] in NG; try congruence.
  - exists i, code, t, n. destruct (end_lok cf l i t n [] [] L EO (half_range _ _ HP)) as (A1 & A2 & A3 & A4 & A5 & _). cbn [app] in *.
    do 6 (split; [auto|]). split; [|exact LE]. destruct cf_ok as (_ & _ & _ & _ & _ & B & _).
    apply complete_perm.
    + unfold games in A1. cbn [end_game cl_done cl_out map game_of fst] in A1. rewrite app_nil_r in A1. exact A1.
    + intros j u I. specialize (A2 j u). unfold games in A2. cbn [end_game cl_done cl_out map game_of fst] in A2. rewrite app_nil_r in A2. apply A2 in I. lia.
    + intros j J. specialize (CO j J). unfold finished in CO. cbn [end_game cl_done map game_of fst] in CO. lia.
  - exists i, code, t, n. destruct (end_lok cf l i t n [] [] L EO (half_range _ _ HP)) as (A1 & A2 & A3 & A4 & A5 & _). cbn [app] in *.
    do 6 (split; [auto|]). split; [|exact LE]. destruct cf_ok as (_ & _ & _ & _ & _ & B & _).
    apply complete_perm.
    + unfold games in A1. cbn [end_game cl_done cl_out map game_of fst] in A1. rewrite app_nil_r in A1. exact A1.
    + intros j u I. specialize (A2 j u). unfold games in A2. cbn [end_game cl_done cl_out map game_of fst] in A2. rewrite app_nil_r in A2. apply A2 in I. lia.
    + intros j J. specialize (CO j J). unfold finished in CO. cbn [end_game cl_done map game_of fst] in CO. lia.
Qed.

Lemma no_more l : LOK cf l -> (forall i, (i < cc_samples cf)%nat -> cc_batch_size cf <= begun l i) -> cl_out l = [] ->
  cl_gen l = cc_generations cf /\ Permutation (map game_of (cl_done l)) (list_prod (seq 0 (cc_samples cf)) (seq 0 (Z.to_nat (cc_batch_size cf)))).
Proof.
  intros L H EO. assert (is_complete cf l) as C. { intros i LI. specialize (H i LI). rewrite begun_split, EO in H. cbn in H. lia. }
  split; [|apply lok_complete; assumption]. destruct (lo_gens _ _ L) as [[_ X]|[X _]]; [contradiction|exact X].
Qed.

(** Nothing that was saved is lost. *)
Definition keeps (b l : cledger) : Prop :=
  (cl_gen b < cl_gen l)%nat \/
  (cl_gen b = cl_gen l /\ cl_dist b = cl_dist l /\ cl_samples b = cl_samples l /\ incl (cl_done b) (cl_done l)).
Definition keeps2 (b : cledger) (s : cledger * option cledger) : Prop :=
  keeps b (fst s) /\ match snd s with Some v => keeps b v | None => False end.
Lemma cstep_keeps b s (e : cevent P) s' : cstep possible cf s e s' -> keeps2 b s -> keeps2 b s'.
Proof.
  intros C [K KV]. unfold keeps2, keeps in *. destruct C; subst; cbn [fst snd cl_gen cl_dist cl_samples cl_done begin_game end_game] in *; (split; [|try exact KV; try exact K]).
  - exact K.
  - exact K.
  - destruct K as [K|(K1 & K2 & K3 & K4)]; [left; exact K|right]. do 3 (split; [assumption|]). apply incl_tl. exact K4.
  - destruct K as [K|(K1 & K2 & K3 & K4)]; left; lia.
  - destruct K as [K|(K1 & K2 & K3 & K4)]; left; lia.
  - exact K.
  - exact K.
  - exact K.
  - exact K.
  - exact KV.
  - contradiction.
Qed.
Lemma csteps_keeps b s (es : list (cevent P)) s' : csteps possible cf s es s' -> keeps2 b s -> keeps2 b s'.
Proof. induction 1 as [|s e s1 es s2 C CS IH]; intros K; [exact K|]. apply IH. eapply cstep_keeps; eauto. Qed.
Lemma csteps_split s (es1 es2 : list (cevent P)) s' : csteps possible cf s (es1 ++ es2) s' -> exists s1, csteps possible cf s es1 s1 /\ csteps possible cf s1 es2 s'.
Proof.
  revert s. induction es1 as [|e es1 IH]; intros s C; [exists s; split; [constructor|exact C]|]. cbn in C. inversion C as [|? ? s1 ? ? C1 C2]; subst.
  destruct (IH _ C2) as (s2 & A & B). exists s2. split; [econstructor; eauto|exact B].
Qed.

(** ** The ringmaster *)
Definition pair_of (j : cjob P) : nat * nat := let '(i, _, t) := cj_data j in (i, t).
Definition cinv (t : ctuner V P) (js : list (cjob P)) : Prop :=
  exists l, CInv possible cf t l /\ Permutation (cl_out l) (map pair_of js) /\
    forall j, In j js -> let '(i, code, r) := cj_data j in
      cj_id j = game_id (cl_gen l) i r /\ (code = fst (cj_black j) \/ code = fst (cj_white j)).
Definition csaved (st : cstatus) : Prop := exists t l, CInv possible cf t l /\ st = get_status t.
Definition clike (c : cconfig V P) : Prop := exists gauss coin, c = with_random gauss coin cf /\ forall k m v, possible m v (gauss k m v).

Lemma played_done s l i n : RG s (groups cf l) -> LOK cf l -> played s i n <-> In (i, n) (map game_of (cl_done l)).
Proof.
  intros H L. unfold played. destruct (Nat.lt_ge_cases i (cc_samples cf)) as [LI|LI].
  - assert (groups cf l = map (group_of cf l) (seq 0 i) ++ group_of cf l i :: map (group_of cf l) (seq (S i) (cc_samples cf - S i))) as EG.
    { unfold groups. apply (map_seq_update (group_of cf l) (group_of cf l) i); [exact LI|reflexivity]. }
    rewrite EG in H. destruct (RG_mid _ _ _ _ H) as (al1 & s1 & al2 & EA & _ & HR & _ & NI).
    assert (dget (group_code i) (allocators s) = Some s1) as D. { rewrite EA. cbn [group_of gr_code] in *. apply dget_mid. exact NI. }
    split.
    + intros (a & E & N & O & R0). assert (a = s1) by congruence. subst a. apply (R_lt _ _ _ HR) in N. unfold taken in N. cbn [b_fixed b_out gr_bag] in N.
      destruct HR as (EO & _). cbn [gr_bag b_out] in EO. rewrite EO in O. apply rounds_in. tauto.
    + intros I. apply rounds_in in I. exists s1. split; [exact D|]. split; [apply (R_lt _ _ _ HR); left; left; exact I|].
      pose proof (R_NoDup _ _ HR) as ND. destruct HR as (EO & _). cbn [gr_bag b_out b_fixed] in *. rewrite EO.
      apply NoDup_app_inv in ND. destruct ND as (_ & _ & DJ). split; intros X; apply (DJ n I); apply in_or_app; auto.
  - split.
    + intros (a & E & _). exfalso. destruct H as (F & _). apply dget_In in E. apply (in_map fst) in E. cbn in E. rewrite (RA_codes _ _ F) in E.
      unfold groups in E. rewrite map_map in E. apply in_map_iff in E. destruct E as (k & EK & IK). cbn in EK. apply group_code_inj in EK. subst k. apply in_seq in IK. lia.
    + intros I. exfalso. destruct (lo_range _ _ L i n) as [X _]; [unfold games; apply in_or_app; left; exact I|lia].
Qed.

Lemma same_played s l s' l' : RG s (groups cf l) -> LOK cf l -> RG s' (groups cf l') -> LOK cf l' -> map game_of (cl_done l) = map game_of (cl_done l') ->
  forall i n, played s i n <-> played s' i n.
Proof. intros H L H' L' E i n. rewrite (played_done s l i n H L), (played_done s' l' i n H' L'), E. reflexivity. Qed.

Lemma cinv_perm t js js' : cinv t js -> Permutation js js' -> cinv t js'.
Proof.
  intros (l & I & PE & H) PJ. exists l. split; [exact I|]. split; [rewrite PE; apply Permutation_map; exact PJ|].
  intros j J. apply H. eapply Permutation_in; [symmetry; exact PJ|exact J].
Qed.

Lemma status_records t l : CInv possible cf t l -> cem_records cf (Some (get_status t)) t.
Proof.
  intros I. do 4 (split; [reflexivity|]). apply (same_played _ l _ l); try apply I; [|reflexivity]. apply RG_pickle. apply I.
Qed.

Lemma no_points l : cl_done l = [] -> forall n k, map (points l) (seq k n) = repeat 0 n.
Proof.
  intros E. induction n as [|n IH]; intros k; [reflexivity|]. cbn [seq map repeat]. rewrite IH. f_equal. unfold points. rewrite E. reflexivity.
Qed.

Lemma cem_sound : sound cem_comp cj_id clike cem_answer cinv csaved (cem_records cf).
Proof.
  constructor.
  - intros. eapply cinv_perm; eauto.
  - intros c t (g & co & -> & PO) E. cbn [cem_comp c_clean] in E. destruct (clean_inv possible cf cf_ok g co PO) as (t' & l & E' & (ss & DR & ->) & I).
    assert (t' = t) by congruence. subst t'. split; [exists (mkCL 0 (cc_initial cf) ss [] [] false); split; [exact I|]; split; [constructor|intros ? []]|].
    split; [exact (ci_gen _ _ _ _ I)|]. split; [exact (ci_dist _ _ _ _ I)|]. split.
    + rewrite (ci_wins _ _ _ _ I). unfold all_points. apply no_points. reflexivity.
    + intros i n X. apply (played_done _ _ i n (ci_sched _ _ _ _ I) (ci_lok _ _ _ _ I)) in X. exact X.
  - intros c st t (g & co & -> & PO) (t0 & l & I0 & ->) E. cbn [cem_comp c_load] in E. destruct (load_inv possible cf cf_ok t0 l g co I0 PO) as (t' & E' & I).
    assert (t' = t) by congruence. subst t'. split; [eexists; split; [exact I|]; split; [constructor|intros ? []]|].
    unfold cem_records, get_status. cbn [cst_generation cst_distribution cst_samples cst_wins cst_sched].
    rewrite (ci_gen _ _ _ _ I), (ci_dist _ _ _ _ I), (ci_samples _ _ _ _ I), (ci_wins _ _ _ _ I), (ci_gen _ _ _ _ I0), (ci_dist _ _ _ _ I0), (ci_samples _ _ _ _ I0), (ci_wins _ _ _ _ I0).
    do 4 (split; [reflexivity|]). eapply (same_played _ l); [apply RG_pickle; apply I0|apply I0|apply I|apply I|reflexivity].
  - intros t js (l & I & _). split; [exists t, l; auto|]. cbn [cem_comp c_status]. eapply status_records; eauto.
  - intros t js x (l & I & PE & H) RX. cbn [cem_comp c_get]. destruct (get_game t) as [t' a] eqn:E.
    destruct (get_step possible cf cf_ok t l None t' a I ltac:(discriminate) E) as (l' & C & I').
    assert (a <> Ok None -> map game_of (cl_done l') = map game_of (cl_done l)) as DN. { intros _. inversion C; subst; reflexivity. }
    assert (cem_records cf x t') as RX'.
    { assert (cl_gen l' = cl_gen l /\ cl_dist l' = cl_dist l /\ cl_samples l' = cl_samples l /\ cl_done l' = cl_done l) as (G1 & G2 & G3 & G4) by (inversion C; subst; auto).
      assert (ct_wins t' = ct_wins t) as G5. { rewrite (ci_wins _ _ _ _ I), (ci_wins _ _ _ _ I'). unfold all_points, points. rewrite G4. reflexivity. }
      assert (forall i n, played (ct_sched t') i n <-> played (ct_sched t) i n) as G6.
      { apply (same_played _ l' _ l); try apply I; try apply I'. rewrite G4. reflexivity. }
      unfold cem_records in *. rewrite (ci_gen _ _ _ _ I'), (ci_dist _ _ _ _ I'), (ci_samples _ _ _ _ I'), G5, G1, G2, G3.
      rewrite (ci_gen _ _ _ _ I), (ci_dist _ _ _ _ I), (ci_samples _ _ _ _ I) in RX. destruct x as [st|].
      - destruct RX as (R1 & R2 & R3 & R4 & R5). do 4 (split; [assumption|]). intros i n. rewrite R5, G6. reflexivity.
      - destruct RX as (R1 & R2 & R3 & R4). do 3 (split; [assumption|]). intros i n. rewrite G6. apply R4. }
    inversion C as [? ? i r j NG JF|? ? NB| | | | | | | | |]; subst.
    + split; [|split; [exact RX'|]].
      * exists (begin_game i r l). split; [exact I'|]. destruct JF as (sm & ps & p & _ & _ & _ & EID & EDA & EC). split.
        -- cbn [begin_game cl_out map]. unfold pair_of at 1. rewrite EDA. constructor. exact PE.
        -- intros j1 [D|D]; [subst j1|exact (H j1 D)]. rewrite EDA. split; [exact EID|]. destruct EC as [(-> & _)|(_ & -> & _)]; auto.
      * intros X. apply in_map_iff in X. destruct X as (j1 & E1 & I1). specialize (H j1 I1). destruct (cj_data j1) as [[i1 code1] r1] eqn:ED1. destruct H as [EID1 _].
        destruct JF as (sm & ps & p & _ & _ & _ & EID & EDA & EC). rewrite EID1, EID in E1. apply game_id_inj in E1. injection E1 as -> ->.
        destruct NG as (_ & _ & _ & NI & _). apply NI. unfold games. apply in_or_app. right. eapply Permutation_in; [symmetry; exact PE|].
        apply in_map_iff. exists j1. split; [unfold pair_of; rewrite ED1; reflexivity|exact I1].
    + split; [exists l'; auto|exact RX'].
  - intros t js x I RX. split; assumption.
  - intros t j js r (l & I & PE & H) (AD & AB & AW). cbn [cem_comp c_result]. destruct (process_game_result r t) as [t' a] eqn:E.
    pose proof (H j (or_introl eq_refl)) as HJ. destruct (cj_data j) as [[i code] rd] eqn:ED. destruct HJ as [_ HC].
    assert (call_ok possible (DResult r)) as OK. { cbn. rewrite AD, AB, AW. exact HC. }
    destruct (result_step possible cf cf_ok t l None r t' a I ltac:(discriminate) OK E) as (l' & C & I').
    assert (In (i, rd) (cl_out l)) as IO. { eapply Permutation_in; [symmetry; exact PE|]. left. unfold pair_of. rewrite ED. reflexivity. }
    assert (Permutation (cl_out l) ((i, rd) :: map pair_of js)) as PE2. { rewrite PE. cbn [map]. unfold pair_of at 1. rewrite ED. reflexivity. }
    inversion C as [| |? ? ? i1 code1 t1 n o1 o2 l1 ED1 EO HP E1 NC|? ? ? i1 code1 t1 n l1 d ss ED1 EO HP E1 CO LE NE DR|? ? ? i1 code1 t1 n l1 d ED1 EO HP E1 CO LE NE|? ? ? i1 code1 t1 ED1 NI| | | | |]; subst.
    + assert ((i1, code1, t1) = (i, code, rd)) as X by congruence. injection X as -> -> ->. exists t'. split; [reflexivity|]. eexists. split; [exact I'|]. split.
      * cbn [end_game cl_out]. apply Permutation_cons_inv with (i, rd). rewrite Permutation_middle, <- EO. exact PE2.
      * intros j1 J1. apply H. right. exact J1.
    + assert (js = []) as -> by (destruct js; [reflexivity|]; apply Permutation_length in PE2; rewrite EO in PE2; cbn in PE2; lia).
      exists t'. split; [reflexivity|]. eexists. split; [exact I'|]. split; [constructor|intros ? []].
    + assert (js = []) as -> by (destruct js; [reflexivity|]; apply Permutation_length in PE2; rewrite EO in PE2; cbn in PE2; lia).
      exists t'. split; [reflexivity|]. eexists. split; [exact I'|]. split; [constructor|intros ? []].
    + exfalso. apply NI. assert ((i1, code1, t1) = (i, code, rd)) as X by congruence. injection X as -> -> ->. exact IO.
  - intros t j js n CI. cbn [cem_comp c_error]. unfold process_game_error. destruct (negb (ct_seen t) || (n >? 0)).
    + exists t, true, false. split; [reflexivity|]. left. exact CI.
    + exists t, false, true. split; [reflexivity|]. exact CI.
Qed.
End Machine.
