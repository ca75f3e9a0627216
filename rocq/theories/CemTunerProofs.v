(** The cross-entropy tuner follows the abstract machine (C43). *)
From Coq Require Import QArith Permutation.
From Verif Require Import Base Bytes PyStr Dict SchedModel SchedSpec SchedProofs GroupProofs CemModel CemSpec CemDistProofs CemProofs.
Open Scope Z_scope.

Section Tuner.
Context {V P : Type}.
Variable possible : Q -> Q -> Q -> Prop.
Variable cf : cconfig V P.
Hypothesis cf_ok : cusable cf.

Record CInv (t : ctuner V P) (l : cledger) : Prop := mkCInv {
  ci_conf : exists g c, ct_conf t = with_random g c cf /\ forall k m v, possible m v (g k m v);
  ci_gen : ct_generation t = cl_gen l;
  ci_dist : ct_distribution t = cl_dist l;
  ci_samples : ct_samples t = cl_samples l;
  ci_wins : ct_wins t = all_points cf l;
  ci_cands : ~ is_complete cf l -> cands_ok cf (cl_gen l) (cl_samples l) (ct_candidates t);
  ci_sched : RG (ct_sched t) (groups cf l);
  ci_seen : ct_seen t = cl_seen l;
  ci_lok : LOK cf l
}.

Lemma specs_codes : map fst (group_specs cf) = map group_code (seq 0 (cc_samples cf)).
Proof. unfold group_specs. rewrite map_map. reflexivity. Qed.
Lemma NoDup_map_inj {A B} (f : A -> B) l : (forall a b, f a = f b -> a = b) -> NoDup l -> NoDup (map f l).
Proof.
  intros INJ. induction 1 as [|x l N ND IH]; cbn; constructor; [|exact IH]. intros I. apply in_map_iff in I. destruct I as (y & E & I). apply INJ in E. subst. contradiction.
Qed.
Lemma specs_nodup : NoDup (map fst (group_specs cf)).
Proof. rewrite specs_codes. apply NoDup_map_inj; [apply group_code_inj|apply seq_NoDup]. Qed.
Lemma specs_random g c : group_specs (with_random g c cf) = group_specs cf.
Proof. reflexivity. Qed.

Lemma find_groups l i : (i < cc_samples cf)%nat -> find_bag (group_code i) (groups cf l) = gr_bag (group_of cf l i).
Proof.
  intros L. unfold find_bag, groups.
  assert (forall k n, (k <= i < k + n)%nat -> List.find (fun g => bytes_eqb (group_code i) (gr_code g)) (map (group_of cf l) (seq k n)) = Some (group_of cf l i)) as H.
  { intros k n. revert k. induction n as [|n IH]; intros k K; [lia|]. cbn [seq map List.find group_of gr_code].
    destruct (bytes_eqb_spec (group_code i) (group_code k)) as [E|E]; [apply group_code_inj in E; subst k; reflexivity|].
    apply IH. destruct (Nat.eq_dec i k); [congruence|lia]. }
  rewrite H by lia. reflexivity.
Qed.
Lemma set_groups_fresh d : RG (set_groups new_gsched (group_specs cf)) (groups cf (mkCL 0 d [] [] [] false)).
Proof.
  pose proof (RG_set_groups new_gsched [] (group_specs cf) RG_init specs_nodup) as H. unfold group_specs at 2 in H. rewrite map_map in H. exact H.
Qed.
Lemma set_groups_again s l : RG s (groups cf l) -> RG (set_groups s (group_specs cf)) (groups cf l).
Proof.
  intros H. pose proof (RG_set_groups _ _ (group_specs cf) H specs_nodup) as H2. unfold group_specs at 2 in H2. rewrite map_map in H2. cbn [fst snd] in H2.
  replace (groups cf l) with (map (fun x => mkGr (group_code x) (Some (cc_batch_size cf)) (find_bag (group_code x) (groups cf l))) (seq 0 (cc_samples cf))); [exact H2|].
  unfold groups at 2. apply map_ext_in. intros i I. apply in_seq in I. rewrite find_groups by lia. reflexivity.
Qed.
Lemma rollback_groups l : map (fun g => mkGr (gr_code g) (gr_limit g) (mkB (b_fixed (gr_bag g)) [])) (groups cf l)
  = groups cf (mkCL (cl_gen l) (cl_dist l) (cl_samples l) (cl_done l) [] false).
Proof. unfold groups. rewrite map_map. reflexivity. Qed.

(** A new generation. *)
Lemma reset_inv t g c d : ct_conf t = with_random g c cf -> (forall k m v, possible m v (g k m v)) -> ct_distribution t = d ->
  good_dist d -> List.length d = List.length (cc_initial cf) -> (ct_generation t < cc_generations cf)%nat ->
  exists t' ss, reset_for_new_generation t = Ok t' /\ drawn possible cf d ss /\ CInv t' (mkCL (ct_generation t) d ss [] [] (ct_seen t)).
Proof.
  intros EC PO ED GD LD GN. unfold reset_for_new_generation. rewrite EC, ED. rewrite prepare_random.
  set (ss := get_samples (with_random g c cf) (ct_used t) (cc_samples (with_random g c cf)) d).
  assert (drawn possible cf d ss) as DR. { destruct (get_samples_drawn possible cf (with_random g c cf) g c d eq_refl PO (cc_samples cf) (ct_used t)) as [A B]. split; [exact A|exact B]. }
  destruct (prepare_ok cf cf_ok (ct_generation t) ss) as (cs & EP & CO). rewrite EP. cbn [bind]. eexists. exists ss. split; [reflexivity|]. split; [exact DR|].
  constructor; cbn [ct_conf ct_generation ct_distribution ct_samples ct_wins ct_candidates ct_sched ct_seen cl_gen cl_dist cl_samples cl_seen]; try reflexivity.
  - exists g, c. split; [reflexivity|exact PO].
  - unfold all_points. cbn [with_random cc_samples]. generalize 0%nat. induction (cc_samples cf) as [|n IH]; intros k; [reflexivity|]. cbn [repeat seq map]. rewrite <- IH. reflexivity.
  - intros _. exact CO.
  - rewrite specs_random. exact (set_groups_fresh d).
  - eapply fresh_lok; eauto.
Qed.

Lemma clean_inv g c : (forall k m v, possible m v (g k m v)) -> exists t l, set_clean_status (with_random g c cf) = Ok t /\ initial possible cf l /\ CInv t l.
Proof.
  intros PO. unfold set_clean_status. cbn [with_random cc_initial]. rewrite new_distribution_ok by (apply initial_good; exact cf_ok). cbn [bind].
  destruct (reset_inv (mkCT (with_random g c cf) 0 (cc_initial cf) [] [] [] new_gsched false 0) g c (cc_initial cf)) as (t & ss & E & D & I); auto.
  - apply initial_good. exact cf_ok.
  - cbn. destruct cf_ok as (_ & _ & _ & _ & _ & _ & _ & G & _). lia.
  - exists t. eexists. split; [exact E|]. split; [|exact I]. exists ss. split; [exact D|reflexivity].
Qed.

Lemma load_inv t l g c : CInv t l -> (forall k m v, possible m v (g k m v)) ->
  exists t', set_status (with_random g c cf) (get_status t) = Ok t' /\ CInv t' (mkCL (cl_gen l) (cl_dist l) (cl_samples l) (cl_done l) [] false).
Proof.
  intros I PO. unfold set_status, get_status. cbn [cst_distribution cst_generation cst_samples cst_wins cst_sched]. rewrite (ci_dist _ _ I), (ci_gen _ _ I), (ci_samples _ _ I), (ci_wins _ _ I).
  rewrite new_distribution_ok by (apply (lo_good _ _ (ci_lok _ _ I))). cbn [bind]. rewrite prepare_random.
  destruct (prepare_ok cf cf_ok (cl_gen l) (cl_samples l)) as (cs & -> & CO). cbn [bind]. eexists. split; [reflexivity|].
  constructor; cbn [ct_conf ct_generation ct_distribution ct_samples ct_wins ct_candidates ct_sched ct_seen cl_gen cl_dist cl_samples cl_seen]; try reflexivity.
  - exists g, c. split; [reflexivity|exact PO].
  - intros _. exact CO.
  - rewrite <- rollback_groups. apply RG_rollback. rewrite specs_random. apply set_groups_again. apply RG_pickle. apply (ci_sched _ _ I).
  - apply restart_lok. apply (ci_lok _ _ I).
Qed.

Lemma issue_inv t l : CInv t l ->
  (exists i r s, next_game cf l i r /\ gissue (ct_sched t) = (s, Ok (Some (group_code i, r))) /\ RG s (groups cf (begin_game i r l))) \/
  ((forall i, (i < cc_samples cf)%nat -> cc_batch_size cf <= begun l i) /\ gissue (ct_sched t) = (ct_sched t, Ok None)).
Proof.
  intros I. pose proof (ci_sched _ _ I) as HS. pose proof (ci_lok _ _ I) as L. destruct (gissue_correct _ _ HS) as [(gs1 & gr & gs2 & r & s & EG & CH & NT & EI & HS2)|[NB EI]].
  - left. unfold groups in EG. apply map_seq_split in EG. destruct EG as (LI & -> & E1 & E2). rewrite Nat.add_0_l in *. set (i := List.length gs1) in *.
    exists i, r, s. destruct CH as (B & M1 & M2). destruct NT as [NI SM].
    split; [|split; [exact (EI _ (Permutation_refl _))|]].
    + unfold below_limit in B. cbn [gr_limit group_of] in B. rewrite issued_begun in *. split; [exact LI|]. split; [exact B|]. split; [|split].
      * intros j J BJ. assert (below_limit (group_of cf l j)) as BL. { unfold below_limit. cbn [gr_limit group_of]. rewrite issued_begun. exact BJ. }
        destruct (Nat.lt_trichotomy j i) as [C|[C|C]].
        -- specialize (M1 (group_of cf l j)). rewrite issued_begun in M1. assert (begun l i < begun l j) by (apply M1; [rewrite E1; apply in_map, in_seq; lia|exact BL]). lia.
        -- subst j. lia.
        -- specialize (M2 (group_of cf l j)). rewrite issued_begun in M2. assert (begun l i <= begun l j) by (apply M2; [rewrite E2; apply in_map, in_seq; lia|exact BL]). lia.
      * intros X. apply in_games in X. apply NI. exact X.
      * intros u U. apply in_games. exact (SM u U).
    + rewrite groups_begin by exact LI. rewrite E1, E2 in HS2. exact HS2.
  - right. split; [|exact (EI _ (Permutation_refl _))]. intros i LI. specialize (NB (group_of cf l i)). unfold below_limit in NB. cbn [gr_limit group_of] in NB. rewrite issued_begun in NB.
    enough (~ begun l i < cc_batch_size cf) by lia. apply NB. unfold groups. apply in_map, in_seq. lia.
Qed.

Lemma get_step t l v t' a : CInv t l -> (forall v', v = Some v' -> LOK cf v') -> get_game t = (t', a) -> exists l', cstep possible cf (l, v) (CGot a) (l', v) /\ CInv t' l'.
Proof.
  intros I LV E. pose proof (ci_lok _ _ I) as L. unfold get_game in E. destruct (issue_inv t l I) as [(i & r & s & NG & EI & HS)|[NB EI]]; rewrite EI in E.
  - cbv iota beta in E. rewrite code_number_code in E. pose proof NG as (LI & B & _).
    assert (~ is_complete cf l) as NC. { intros C. specialize (C i LI). rewrite begun_split in B. lia. }
    destruct (ci_cands _ _ I NC) as [LC HC]. pose proof (lo_samples _ _ L) as LS.
    destruct (nth_error (ct_candidates t) i) as [cand|] eqn:EC; [|apply nth_error_None in EC; lia].
    destruct (nth_error (cl_samples l) i) as [sample|] eqn:ES; [|apply nth_error_None in ES; lia].
    destruct (HC i sample cand ES EC) as (vs & p & F & EM & ->).
    destruct (choose_candidate_colour (ct_conf t) (ct_used t)) as [col used] eqn:EK. rewrite (ci_samples _ _ I), ES in E.
    destruct (ci_conf _ _ I) as (g & c & ECF & PO). rewrite ECF in E, EK. rewrite transform_random in E. destruct (transform_total cf cf_ok sample) as (vs' & ET & _). rewrite ET in E.
    injection E as <- <-. exists (begin_game i r l).
    assert (cstep possible cf (l, v) (CGot (Ok (Some (mkCJ (candidate_code (cl_gen l) i ++ str "r" ++ str_int (Z.of_nat r)) (i, candidate_code (cl_gen l) i, r)
      (match col with Black => (candidate_code (cl_gen l) i, p) | White => (cc_opponent cf, cc_opponent_player cf) end)
      (match col with Black => (cc_opponent cf, cc_opponent_player cf) | White => (candidate_code (cl_gen l) i, p) end))))) (begin_game i r l, v)) as C.
    { apply cs_get; [exact NG|]. exists sample, vs, p. split; [exact ES|]. split; [exact F|]. split; [exact EM|]. split; [reflexivity|]. split; [reflexivity|].
      cbn [cj_black cj_white]. unfold choose_candidate_colour in EK. cbn [with_random cc_colour] in EK. destruct (cc_colour cf) as [c0|].
      - injection EK as -> _. destruct col; [left|right]; split; auto; split; auto; discriminate.
      - destruct col; [left|right]; split; auto; split; auto; discriminate. }
    split; [exact C|]. pose proof (cstep_lok possible cf cf_ok _ _ _ C) as LK. unfold LOKs in LK.
    constructor; cbn [with_sched ct_conf ct_generation ct_distribution ct_samples ct_wins ct_candidates ct_sched ct_seen begin_game cl_gen cl_dist cl_samples cl_seen]; try apply I.
    + exact HS.
    + exact (proj1 (LK (conj L LV))).
  - injection E as <- <-. exists l. split; [constructor; exact NB|]. destruct I. constructor; assumption.
Qed.

Lemma fix_inv t l i r : CInv t l ->
  (exists p1 p2 s, (i < cc_samples cf)%nat /\ cl_out l = p1 ++ (i, r) :: p2 /\ gfix (ct_sched t) (group_code i) r = (s, Ok tt) /\
     forall n, RG s (groups cf (end_game i r n (p1 ++ p2) l))) \/
  (~ In (i, r) (cl_out l) /\ exists s, gfix (ct_sched t) (group_code i) r = (s, Err KeyError) /\ RG s (groups cf l)).
Proof.
  intros I. pose proof (ci_sched _ _ I) as HS. pose proof (ci_lok _ _ I) as L.
  destruct (gfix_correct _ _ (group_code i) r HS) as [(gs1 & lim & f & o1 & o2 & gs2 & EG & E2 & HS2)|(NI & E2 & HS2)].
  - left. unfold groups in EG. apply map_seq_split in EG. destruct EG as (LI & EX & E1 & E3). rewrite Nat.add_0_l in *. set (k := List.length gs1) in *.
    unfold group_of in EX. injection EX as EC EL EF EO. apply group_code_inj in EC. subst k. rewrite <- EC in *. symmetry in EO. apply rounds_split in EO. destruct EO as (p1 & p2 & EO & P1 & P2).
    exists p1, p2, (fst (gfix (ct_sched t) (group_code i) r)). split; [exact LI|]. split; [exact EO|]. split; [rewrite <- E2; apply surjective_pairing|].
    intros n. rewrite groups_end by assumption. rewrite P1, P2, <- E1, <- EL, <- EF, <- E3. exact HS2.
  - right. split.
    + intros X. assert (i < cc_samples cf)%nat as LI. { apply (lo_range _ _ L i r). unfold games. apply in_or_app. right. exact X. }
      apply (NI (group_of cf l i)); [unfold groups; apply in_map, in_seq; lia|reflexivity|]. cbn. apply rounds_in. exact X.
    + exists (fst (gfix (ct_sched t) (group_code i) r)). split; [rewrite <- E2; apply surjective_pairing|exact HS2].
Qed.

Lemma nths_ok {A} (l : list A) is : Forall (fun i => (i < List.length l)%nat) is -> exists r, nths l is = Ok r /\ Forall2 (fun i x => nth_error l i = Some x) is r.
Proof.
  induction 1 as [|i is H F IH]; [exists []; split; [reflexivity|constructor]|]. cbn. destruct (nth_error l i) as [x|] eqn:E; [|apply nth_error_None in E; lia].
  destruct IH as (r & -> & F2). eexists. split; [reflexivity|]. constructor; assumption.
Qed.

Lemma finish_ok t l g c : ct_conf t = with_random g c cf -> ct_distribution t = cl_dist l -> ct_samples t = cl_samples l -> ct_wins t = all_points cf l ->
  good_dist (cl_dist l) -> List.length (cl_dist l) = List.length (cc_initial cf) -> List.length (cl_samples l) = cc_samples cf ->
  Forall (fun s => List.length s = List.length (cc_initial cf)) (cl_samples l) ->
  exists d, finish_generation t = Ok d /\ learned cf l d /\ good_dist d /\ List.length d = List.length (cc_initial cf).
Proof.
  intros EC ED ES EW GD LD LS FS. unfold finish_generation. rewrite EC, ED, ES, EW, transform_random.
  destruct (transform_total cf cf_ok (get_means (cl_dist l))) as (vs & -> & _). cbn [bind].
  assert (List.length (all_points cf l) = cc_samples cf) as LP by (unfold all_points; rewrite map_length, seq_length; reflexivity).
  destruct cf_ok as (_ & _ & _ & _ & _ & _ & S1 & _ & EP & SP).
  assert (all_points cf l <> []) as NP. { intros X. rewrite X in LP. cbn in LP. lia. }
  pose proof (elites_correct (cc_elite_proportion cf) (all_points cf l) EP NP) as EO. rewrite LP in EO.
  assert (Forall (fun i => (i < List.length (cl_samples l))%nat) (map snd (sorter (all_points cf l)))) as FR.
  { apply Forall_forall. intros i I. apply (Permutation_in _ (sorter_numbers _)) in I. apply in_seq in I. lia. }
  destruct (nths_ok _ _ FR) as (all & -> & _). cbn [bind]. rewrite transform_all_random, (transform_all_total cf cf_ok). cbn [bind].
  cbn [with_random cc_elite_proportion cc_samples cc_step_size].
  set (es := map snd (firstn (elite_count (cc_elite_proportion cf) (cc_samples cf)) (sorter (all_points cf l)))) in *.
  assert (Forall (fun i => (i < List.length (cl_samples l))%nat) es) as FE.
  { apply Forall_forall. intros i I. destruct EO as (_ & H & _). apply H in I. lia. }
  destruct (nths_ok _ _ FE) as (el & -> & F2). cbn [bind].
  destruct (update_distribution_ok (cc_step_size cf) (cl_dist l) el SP GD) as (d & ED2 & U & G2).
  - destruct EO as (_ & _ & (N1 & _) & _). destruct F2; [cbn in N1; lia|discriminate].
  - apply Forall_forall. intros e I. rewrite LD. rewrite Forall_forall in FS. apply FS. clear -F2 I. induction F2 as [|i x is r H F IH]; [destruct I|].
    destruct I as [<-|I]; [eapply nth_error_In; exact H|auto].
  - exists d. split; [exact ED2|]. split; [|split; [exact G2|rewrite (proj1 U); exact LD]]. exists es, el. split; [exact EO|]. split; [exact F2|exact U].
Qed.

Lemma half_points_of r i code rd : cr_data r = (i, code, rd) ->
  half_points r (if opt_eqb (cr_winner r) code then 2 else match cr_winner r with None => 1 | Some _ => 0 end).
Proof.
  intros E. unfold half_points. rewrite E. destruct (cr_winner r) as [w|]; cbn; [|right; left; auto].
  destruct (bytes_eqb_spec w code) as [->|N]; [left; auto|right; right]. split; [discriminate|]. split; [congruence|reflexivity].
Qed.

Lemma result_step t l v r t' a : CInv t l -> (forall v', v = Some v' -> LOK cf v') -> call_ok possible (DResult r) -> process_game_result r t = (t', a) ->
  exists l', cstep possible cf (l, v) (CResulted r a) (l', v) /\ CInv t' l'.
Proof.
  intros I LV OK E. pose proof (ci_lok _ _ I) as L. unfold process_game_result in E. cbn [call_ok] in OK. destruct (cr_data r) as [[i code] rd] eqn:ED.
  destruct (ci_conf _ _ I) as (g & c & EC & PO).
  destruct (fix_inv t l i rd I) as [(p1 & p2 & s & LI & EO & EF & HS)|(NI & s & EF & HS)]; rewrite EF in E.
  - replace (bytes_eqb code (cr_black r) || bytes_eqb code (cr_white r)) with true in E.
    2:{ symmetry. apply orb_true_iff. destruct OK as [D|D]; rewrite D; [left|right]; apply bytes_eqb_refl. }
    cbn [negb] in E. pose proof (half_points_of r i code rd ED) as HP.
    set (n := if opt_eqb (cr_winner r) code then 2 else match cr_winner r with None => 1 | Some _ => 0 end) in *.
    set (l1 := end_game i rd n (p1 ++ p2) l).
    assert ((if n =? 0 then Some (ct_wins (with_results s (ct_wins t) t)) else add_nth i n (ct_wins (with_results s (ct_wins t) t))) = Some (all_points cf l1)) as EW.
    { cbn [with_results ct_wins]. rewrite (ci_wins _ _ I). destruct (Z.eqb_spec n 0) as [Z|Z]; [|apply add_nth_points; exact LI].
      unfold l1. rewrite Z, points_zero. reflexivity. }
    rewrite EW in E. cbv zeta in E. specialize (HS n). fold l1 in HS.
    destruct (all_fixed_correct _ _ HS) as [[EA CO]|[EA NC]]; rewrite EA in E.
    + apply groups_complete in CO. destruct (end_lok cf l i rd n p1 p2 L EO (half_range _ _ HP)) as (_ & _ & _ & _ & GN & PE). fold l1 in PE. specialize (PE CO).
      apply app_eq_nil in PE. destruct PE as [-> ->]. cbn [app] in *.
      set (t2 := with_results s (all_points cf l1) (with_results s (ct_wins t) t)) in *.
      destruct (finish_ok t2 l1 g c) as (d & EFI & LE & G2 & LD2); try assumption.
      { exact (ci_dist _ _ I). } { exact (ci_samples _ _ I). } { reflexivity. } { apply L. } { apply L. } { apply L. } { apply L. }
      rewrite EFI in E. set (t3 := with_generation (S (ct_generation t2)) d t2) in *.
      assert (ct_generation t3 = S (cl_gen l)) as EG. { cbn. rewrite (ci_gen _ _ I). reflexivity. }
      assert (cc_generations (ct_conf t3) = cc_generations cf) as ECG. { cbn. rewrite EC. reflexivity. }
      rewrite EG, ECG in E. destruct (Nat.eqb_spec (S (cl_gen l)) (cc_generations cf)) as [EN|NN].
      * injection E as <- <-. eexists. assert (cstep possible cf (l, v) (CResulted r (Ok tt)) (mkCL (S (cl_gen l)) d (cl_samples l1) (cl_done l1) [] true, v)) as C by (eapply cs_last; [exact ED|exact EO|exact HP|reflexivity|exact CO|exact LE|exact EN]).
        split; [exact C|]. constructor; try (exact EG); try reflexivity.
        -- exists g, c. split; [exact EC|exact PO].
        -- exact (ci_samples _ _ I).
        -- intros X. exfalso. apply X. exact CO.
        -- exact HS.
        -- exact (proj1 (cstep_lok possible cf cf_ok _ _ _ C (conj L LV))).
      * destruct (reset_inv t3 g c d) as (t4 & ss & ER & DR & I4); try assumption; try reflexivity; [rewrite EG; lia|].
        rewrite ER in E. injection E as <- <-. rewrite EG in I4. eexists. split; [|exact I4]. eapply cs_generation; [exact ED|exact EO|exact HP|reflexivity|exact CO|exact LE|exact NN|exact DR].
    + injection E as <- <-. exists l1.
      assert (cstep possible cf (l, v) (CResulted r (Ok tt)) (l1, v)) as C.
      { eapply cs_result; [exact ED|exact EO|exact HP|reflexivity|]. apply groups_open. exact NC. }
      split; [exact C|]. constructor; try apply I; try reflexivity.
      * intros _. apply (ci_cands _ _ I). destruct (lo_gens _ _ L) as [[_ X]|[_ [_ X]]]; [exact X|]. rewrite X in EO. destruct p1; discriminate.
      * exact HS.
      * exact (proj1 (cstep_lok possible cf cf_ok _ _ _ C (conj L LV))).
  - injection E as <- <-. eexists. split; [eapply cs_bad_result; [exact ED|exact NI]|].
    constructor; try apply I; try reflexivity; [exact HS|]. destruct L. constructor; assumption.
Qed.

Lemma error_step t l v n t' a : CInv t l -> process_game_error n t = (t', a) -> cstep possible cf (l, v) (CFailed n a) (l, v) /\ t' = t.
Proof.
  intros I E. unfold process_game_error in E. rewrite (ci_seen _ _ I) in E. destruct (cl_seen l) eqn:ES; cbn [negb orb] in E.
  - rewrite Z.gtb_ltb in E. destruct (Z.ltb_spec 0 n) as [L|L]; injection E as <- <-; (split; [|reflexivity]).
    + apply cs_stop. right. lia.
    + apply cs_retry; [exact ES|lia].
  - injection E as <- <-. split; [|reflexivity]. apply cs_stop. left. exact ES.
Qed.

Definition Sys (s : ctuner V P * option cstatus) (x : cledger * option cledger) : Prop :=
  CInv (fst s) (fst x) /\
  match snd s, snd x with
  | None, None => True
  | Some st, Some v => exists t, CInv t v /\ st = get_status t
  | _, _ => False
  end.
Lemma sys_lok s x : Sys s x -> forall v, snd x = Some v -> LOK cf v.
Proof. intros [_ H] v E. rewrite E in H. destruct (snd s) as [st|]; [|contradiction]. destruct H as (t & I & _). apply (ci_lok _ _ I). Qed.

Lemma cdo_step s x c : Sys s x -> call_ok possible c -> exists s' e x', cdo cf s c = Some (s', e) /\ cstep possible cf x e x' /\ Sys s' x'.
Proof.
  destruct s as [t st], x as [l v]. intros SY OK. pose proof (sys_lok _ _ SY) as LV. cbn [snd] in LV. destruct SY as [I H]. cbn [fst snd] in *.
  destruct c as [|r|n| |g co]; cbn [cdo].
  - destruct (get_game t) as [t' a] eqn:E. destruct (get_step t l v t' a I LV E) as (l' & C & I'). eexists _, _, (l', v). split; [reflexivity|]. split; [exact C|split; assumption].
  - destruct (process_game_result r t) as [t' a] eqn:E. destruct (result_step t l v r t' a I LV OK E) as (l' & C & I'). eexists _, _, (l', v). split; [reflexivity|]. split; [exact C|split; assumption].
  - destruct (process_game_error n t) as [t' a] eqn:E. destruct (error_step t l v n t' a I E) as [C ->]. eexists _, _, (l, v). split; [reflexivity|]. split; [exact C|split; assumption].
  - eexists _, _, (l, Some l). split; [reflexivity|]. split; [constructor|]. split; [exact I|]. exists t. auto.
  - cbn [call_ok] in OK. destruct st as [st|], v as [v|]; try contradiction.
    + destruct H as (t1 & I1 & ->). destruct (load_inv t1 v g co I1 OK) as (t' & -> & I'). eexists _, _, (_, Some v). split; [reflexivity|]. split; [constructor|]. split; [exact I'|]. exists t1. auto.
    + destruct (clean_inv g co OK) as (t' & l' & -> & (ss & DR & ->) & I'). eexists _, _, (_, None). split; [reflexivity|]. split; [constructor; exact DR|]. split; [exact I'|exact Logic.I].
Qed.
Lemma crun_steps cs : forall s x, Sys s x -> Forall (call_ok possible) cs -> exists s' es x', crun cf s cs = Some (s', es) /\ csteps possible cf x es x' /\ Sys s' x'.
Proof.
  induction cs as [|c cs IH]; intros s x SY F; [exists s, [], x; split; [reflexivity|]; split; [constructor|exact SY]|]. inversion F as [|? ? OK F']; subst.
  destruct (cdo_step s x c SY OK) as (s1 & e & x1 & E & C & SY1). destruct (IH s1 x1 SY1 F') as (s2 & es & x2 & E2 & C2 & SY2).
  exists s2, (e :: es), x2. cbn [crun]. rewrite E, E2. split; [reflexivity|]. split; [econstructor; eauto|exact SY2].
Qed.
End Tuner.
