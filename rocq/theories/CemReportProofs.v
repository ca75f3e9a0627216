(** Proofs for C74. *)
From Coq Require Import QArith Lqa Permutation Sorted.
From Verif Require Import Base Bytes PyStr CommonModel SgfPropsModel SgfValueProofs GameplayModel SchedModel SchedSpec SchedProofs GroupProofs TableModel ReportModel ReportSpec ReportTextProofs
  CemModel CemSpec CemDistProofs CemProofs CemTunerProofs CemReportModel CemReportSpec.
From Verif Require MctsModel MctsReportModel MctsReportSpec.
Open Scope Z_scope.

Lemma decimal_shown tie q : shows_decimal q (qfixed2 tie q).
Proof.
  unfold shows_decimal, qfixed2. destruct q as [n d]. cbn [Qnum Qden]. destruct (Z_lt_dec n 0) as [N|N].
  - right. split; [unfold Qlt; cbn; lia|]. exists (fixed2 tie (- n) (Zpos d)). split; [apply fixed2_shown; lia|]. unfold fixed2.
    rewrite Z.abs_opp. destruct (Z.ltb_spec n 0); [|lia]. destruct (Z.ltb_spec (- n) 0); [lia|]. reflexivity.
  - left. split; [unfold Qle; cbn; lia|]. apply fixed2_shown; lia.
Qed.

Lemma words_proof {V} (show_value : V -> bytes) fs : forall vs : list V,
  Forall2 (fun fv t => MctsReportSpec.value_text show_value (fst fv) (snd fv) t) (combine fs vs) (MctsModel.zip_with (MctsReportModel.format_value show_value) fs vs).
Proof.
  induction fs as [|f fs IH]; intros [|v vs]; cbn; try constructor; [|apply IH]. unfold MctsReportSpec.value_text, MctsReportModel.format_value. cbn [fst snd].
  destruct (snd f v) as [s|]; [left; reflexivity|right; split; reflexivity].
Qed.

(** The elites are determined. *)
Lemma better_asym p i j : better p i j -> better p j i -> False.
Proof. intros (a & b & A & B & H) (b' & a' & B' & A' & H'). assert (a = a') by congruence. assert (b = b') by congruence. lia. Qed.
Lemma nearest_count_unique p n a b : nearest_count p n a -> nearest_count p n b -> a = b.
Proof.
  unfold nearest_count. cbv zeta. intros (A1 & A2 & A3) (B1 & B2 & B3). set (x := (p * inject_Z (Z.of_nat n))%Q) in *.
  assert (H : forall u v : nat, (inject_Z (Z.of_nat u) < inject_Z (Z.of_nat v) + 1)%Q -> (u <= v)%nat).
  { intros u v L. change 1%Q with (inject_Z 1) in L. rewrite <- inject_Z_plus, <- Zlt_Qlt in L. lia. }
  assert ((a <= b)%nat). { destruct A3 as [A3|A3]; [|lia]. apply H. lra. }
  assert ((b <= a)%nat). { destruct B3 as [B3|B3]; [|lia]. apply H. lra. }
  lia.
Qed.
Lemma elites_incl p pts a b : elites_of p pts a -> elites_of p pts b -> incl a b.
Proof.
  intros (NA & RA & CA & TA) (NB & RB & CB & TB) i IA. destruct (in_dec Nat.eq_dec i b) as [I|N]; [exact I|exfalso].
  pose proof (nearest_count_unique _ _ _ _ CA CB) as EL.
  destruct (Forall_Exists_dec (fun j => In j a) (fun j => in_dec Nat.eq_dec j a) b) as [F|E].
  - assert (incl b a) as IB by (intros j J; rewrite Forall_forall in F; auto).
    assert (incl (i :: b) a) as IB' by (intros j [<-|J]; auto).
    pose proof (NoDup_incl_length (NoDup_cons i N NB) IB'). cbn [List.length] in *. lia.
  - apply Exists_exists in E. destruct E as (j & J & NJ). apply (better_asym pts i j); [apply TA; auto|apply TB; auto].
Qed.
Lemma elites_unique p pts a b : elites_of p pts a -> elites_of p pts b -> Permutation a b.
Proof. intros A B. apply NoDup_Permutation; [apply A|apply B|]. intros x. split; [apply (elites_incl p pts a b A B)|apply (elites_incl p pts b a B A)]. Qed.

Lemma sorter_sorted pts : StronglySorted (better pts) (map snd (sorter pts)).
Proof.
  assert (H : forall l, StronglySorted in_order l -> NoDup (map snd l) -> (forall x i, In (x, i) l -> nth_error pts i = Some x) -> StronglySorted (better pts) (map snd l)).
  { induction 1 as [|[x i] l S IH F]; intros ND IN; cbn [map snd]; constructor.
    - apply IH; [inversion ND; assumption|]. intros y j J. apply IN. right. exact J.
    - apply Forall_forall. intros j J. apply in_map_iff in J. destruct J as ([y j'] & <- & J). cbn [snd]. rewrite Forall_forall in F. pose proof (F _ J) as O. unfold in_order in O.
      apply pair_before_false in O. cbn [fst snd] in O. exists x, y. split; [apply IN; left; reflexivity|]. split; [apply IN; right; exact J|].
      assert (i <> j'). { intros ->. inversion ND as [|? ? NI _]; subst. apply NI. apply in_map_iff. exists (y, j'). auto. }
      lia. }
  apply H; [apply sort_sorted| |intros x i; apply sorter_in]. eapply Permutation_NoDup; [symmetry; apply sorter_numbers|apply seq_NoDup].
Qed.

Section Texts.
Context {V P : Type}.
Variable tie : Z -> Z -> bool.
Variable formats : list (bytes * (V -> option bytes)).
Variable show_value : V -> bytes.
Variable cf : cconfig V P.
Hypothesis cf_ok : cusable cf.

Lemma params_proof sample : exists s, format_optimiser_parameters formats show_value cf sample = Ok s /\ params_text formats show_value cf sample s.
Proof.
  destruct (transform_total cf cf_ok sample) as (vs & E & F). unfold format_optimiser_parameters. rewrite E. cbn [bind]. eexists. split; [reflexivity|].
  exists vs. split; [exact F|]. exists (MctsModel.zip_with (MctsReportModel.format_value show_value) formats vs). split; [apply words_proof|reflexivity].
Qed.

Lemma dist_proof d : exists s, format_distribution tie formats show_value cf d = Ok s /\ dist_text formats show_value cf d s.
Proof.
  destruct (params_proof (get_means d)) as (a & E & T). unfold format_distribution. rewrite E. cbn [bind]. eexists. split; [reflexivity|].
  exists a. eexists. split; [exact T|]. split; [|reflexivity]. clear. induction d as [|p d IH]; constructor; [|exact IH]. eexists. eexists. split; [apply decimal_shown|]. split; [apply decimal_shown|reflexivity].
Qed.

Lemma lines_proof l count : (forall i, (i < List.length (all_points cf l))%nat -> nth_error (cl_samples l) i <> None) ->
  forall ordered i elites, (forall w j, In (w, j) ordered -> (j < cc_samples cf)%nat /\ w = points l j) ->
  NoDup (map snd ordered) ->
  (forall j, In j (map snd ordered) -> (In j elites <-> In j (map snd (firstn (count - i) ordered)))) ->
  exists ls, result_lines formats show_value cf (cl_gen l) (cl_samples l) count i ordered = Ok ls /\
    Forall2 (candidate_line formats show_value cf l elites) (map snd ordered) ls.
Proof.
  intros HS. assert (LP : List.length (all_points cf l) = cc_samples cf) by (unfold all_points; rewrite map_length, seq_length; reflexivity). rewrite LP in HS.
  induction ordered as [|[w j] rest IH]; intros i elites HW ND HE; [exists []; split; [reflexivity|constructor]|].
  destruct (HW w j (or_introl eq_refl)) as [LJ EW]. cbn [result_lines].
  destruct (nth_error (cl_samples l) j) as [sample|] eqn:ES; [|exfalso; exact (HS j LJ ES)].
  destruct (params_proof sample) as (a & EA & TA). rewrite EA. cbn [bind]. cbn [map snd] in ND. inversion ND as [|? ? NI ND']; subst.
  destruct (IH (S i) elites) as (ls & EL & FL).
  - intros w' j' I. apply HW. right. exact I.
  - exact ND'.
  - intros j' J. rewrite (HE j' (or_intror J)). destruct (count - i)%nat as [|k] eqn:EK; [replace (count - S i)%nat with 0%nat by lia; reflexivity|].
    replace (count - S i)%nat with k by lia. cbn [firstn map snd]. split; [|intros X; right; exact X]. intros [X|X]; [subst j'; contradiction|exact X].
  - rewrite EL. cbn [bind]. eexists. split; [reflexivity|]. cbn [map snd]. constructor; [|exact FL].
    exists sample, a, (if Nat.ltb i count then str "*" else str " "). split; [exact ES|]. split; [exact TA|]. split; [|reflexivity].
    pose proof (HE j (or_introl eq_refl)) as HJ. destruct (Nat.ltb_spec i count) as [L|L]; [left|right]; (split; [|reflexivity]).
    + apply HJ. replace (count - i)%nat with (S (count - S i)) by lia. left. reflexivity.
    + rewrite HJ. replace (count - i)%nat with 0%nat by lia. intros [].
Qed.

Lemma random_lines g c generation ss count ordered : forall i,
  result_lines formats show_value (with_random g c cf) generation ss count i ordered = result_lines formats show_value cf generation ss count i ordered.
Proof.
  induction ordered as [|[w j] rest IH]; intros i; [reflexivity|]. cbn [result_lines]. destruct (nth_error ss j) as [o|]; [|reflexivity].
  change (format_optimiser_parameters formats show_value (with_random g c cf) o) with (format_optimiser_parameters formats show_value cf o). rewrite IH. reflexivity.
Qed.

Lemma generation_proof t l g c : ct_conf t = with_random g c cf -> ct_generation t = cl_gen l -> ct_distribution t = cl_dist l -> ct_samples t = cl_samples l -> ct_wins t = all_points cf l ->
  List.length (cl_samples l) = cc_samples cf ->
  exists logged, generation_log tie formats show_value t = Ok logged /\ generation_says formats show_value cf l logged.
Proof.
  intros EC EG ED ES EW LS. unfold generation_log. rewrite EC, EG, ED, ES, EW. cbv zeta.
  assert (LP : List.length (all_points cf l) = cc_samples cf) by (unfold all_points; rewrite map_length, seq_length; reflexivity).
  destruct (dist_proof (cl_dist l)) as (d & EDT & TD).
  change (format_distribution tie formats show_value (with_random g c cf) (cl_dist l)) with (format_distribution tie formats show_value cf (cl_dist l)). rewrite EDT. cbn [bind].
  rewrite random_lines. cbn [with_random cc_elite_proportion cc_samples].
  pose proof cf_ok as (_ & _ & _ & _ & _ & _ & S1 & _ & EP & _).
  assert (NP : all_points cf l <> []). { intros X. rewrite X in LP. cbn in LP. lia. }
  pose proof (elites_correct (cc_elite_proportion cf) (all_points cf l) EP NP) as EO. rewrite LP in EO.
  set (count := elite_count (cc_elite_proportion cf) (cc_samples cf)) in *. set (sorted := sorter (all_points cf l)) in *.
  destruct (lines_proof l count) with (ordered := sorted) (i := 0%nat) (elites := map snd (firstn count sorted)) as (ls & EL & FL).
  - intros i L. rewrite LP, <- LS in L. apply nth_error_Some. exact L.
  - intros w j I. apply sorter_in in I. unfold all_points in I. assert (j < cc_samples cf)%nat as LJ. { rewrite <- LP. apply nth_error_Some. unfold all_points. congruence. }
    split; [exact LJ|]. assert (nth_error (seq 0 (cc_samples cf)) j = Some j) as EJ.
    { rewrite nth_error_nth' with (d := 0%nat) by (rewrite seq_length; exact LJ). rewrite seq_nth by exact LJ. reflexivity. }
    rewrite (map_nth_error _ _ _ EJ) in I. congruence.
  - eapply Permutation_NoDup; [symmetry; apply sorter_numbers|apply seq_NoDup].
  - intros j _. rewrite Nat.sub_0_r. reflexivity.
  - rewrite EL. cbn [bind]. eexists. split; [reflexivity|]. exists d, (map snd sorted), (map snd (firstn count sorted)), ls. split; [exact TD|].
    split; [rewrite <- LP; apply sorter_numbers|]. split; [apply sorter_sorted|]. split; [exact EO|]. split; [exact FL|reflexivity].
Qed.
End Texts.

Section History.
Context {V P : Type}.
Variable possible : Q -> Q -> Q -> Prop.
Variable tie : Z -> Z -> bool.
Variable formats : list (bytes * (V -> option bytes)).
Variable show_value : V -> bytes.
Variable cf : cconfig V P.
Hypothesis cf_ok : cusable cf.

(** What is logged for a result. *)
Lemma log_proof t l r : CInv possible cf t l -> call_ok possible (DResult r) ->
  exists logged, result_log tie formats show_value r t = Ok logged /\
    let '(i, _, rd) := cr_data r in
    (logged = [] /\ ct_generation (fst (process_game_result r t)) = ct_generation t \/
     exists n, half_points r n /\ cl_out l = [(i, rd)] /\ ct_generation (fst (process_game_result r t)) = S (ct_generation t) /\
       is_complete cf (end_game i rd n [] l) /\ generation_says formats show_value cf (end_game i rd n [] l) logged).
Proof.
  intros I OK. pose proof (ci_lok _ _ _ _ I) as L. unfold process_game_result, result_log. cbn [call_ok] in OK. destruct (cr_data r) as [[i code] rd] eqn:ED.
  destruct (ci_conf _ _ _ _ I) as (g & c & EC & PO).
  destruct (fix_inv possible cf t l i rd I) as [(p1 & p2 & s & LI & EO & EF & HS)|(NI & s & EF & HS)]; rewrite EF.
  2:{ exists []. split; [reflexivity|]. left. split; reflexivity. }
  replace (bytes_eqb code (cr_black r) || bytes_eqb code (cr_white r)) with true.
  2:{ symmetry. apply orb_true_iff. destruct OK as [D|D]; rewrite D; [left|right]; apply bytes_eqb_refl. }
  cbn [negb]. pose proof (half_points_of r i code rd ED) as HP.
  set (n := if opt_eqb (cr_winner r) code then 2 else match cr_winner r with None => 1 | Some _ => 0 end) in *. cbv zeta.
  set (l1 := end_game i rd n (p1 ++ p2) l).
  assert ((if n =? 0 then Some (ct_wins t) else add_nth i n (ct_wins t)) = Some (all_points cf l1)) as EW.
  { rewrite (ci_wins _ _ _ _ I). destruct (Z.eqb_spec n 0) as [Z|Z]; [|apply add_nth_points; exact LI]. unfold l1. rewrite Z, points_zero. reflexivity. }
  change (ct_wins (with_results s (ct_wins t) t)) with (ct_wins t). rewrite EW. specialize (HS n). fold l1 in HS.
  destruct (all_fixed_correct _ _ HS) as [[EA CO]|[EA NC]]; rewrite EA.
  2:{ exists []. split; [reflexivity|]. left. split; reflexivity. }
  apply groups_complete in CO. destruct (end_lok cf l i rd n p1 p2 L EO (half_range _ _ HP)) as (_ & _ & _ & _ & GN & PE). fold l1 in PE. specialize (PE CO).
  apply app_eq_nil in PE. destruct PE as [-> ->]. cbn [app] in *.
  destruct (generation_proof tie formats show_value cf cf_ok (with_results s (all_points cf l1) t) l1 g c) as (logged & EL & TL).
  { exact EC. } { exact (ci_gen _ _ _ _ I). } { exact (ci_dist _ _ _ _ I). } { exact (ci_samples _ _ _ _ I). } { reflexivity. } { apply L. }
  exists logged. split; [exact EL|]. right. exists n. split; [exact HP|]. split; [exact EO|]. split; [|split; [exact CO|exact TL]].
  set (t2 := with_results s (all_points cf l1) (with_results s (ct_wins t) t)) in *.
  destruct (finish_ok cf cf_ok t2 l1 g c) as (d & EFI & LE & G2 & LD2); try assumption.
  { exact (ci_dist _ _ _ _ I). } { exact (ci_samples _ _ _ _ I). } { reflexivity. } { apply L. } { apply L. } { apply L. } { apply L. }
  rewrite EFI. set (t3 := with_generation (S (ct_generation t2)) d t2) in *.
  assert (ct_generation t3 = S (cl_gen l)) as EG. { cbn. rewrite (ci_gen _ _ _ _ I). reflexivity. }
  assert (cc_generations (ct_conf t3) = cc_generations cf) as ECG. { cbn. rewrite EC. reflexivity. }
  rewrite EG, ECG. destruct (Nat.eqb_spec (S (cl_gen l)) (cc_generations cf)) as [EN|NN]; [cbn [fst]; rewrite EG, (ci_gen _ _ _ _ I); reflexivity|].
  destruct (reset_inv possible cf cf_ok t3 g c d) as (t4 & ss & ER & DR & I4); try assumption; try reflexivity.
  { rewrite EG. destruct (lo_gens _ _ L) as [[X _]|[_ [_ X]]]; [lia|]. rewrite X in EO. discriminate. }
  rewrite ER. cbn [fst]. rewrite (ci_gen _ _ _ _ I4). cbn [cl_gen]. rewrite EG, (ci_gen _ _ _ _ I). reflexivity.
Qed.

(** When a generation starts. *)
Lemma started_proof t l : CInv possible cf t l ->
  (games l = [] /\ get_log t = [[char_lf] ++ str "starting generation " ++ str_int (Z.of_nat (cl_gen l))]) \/ (games l <> [] /\ get_log t = []).
Proof.
  intros I. pose proof (ci_lok _ _ _ _ I) as L. unfold get_log. rewrite (ci_gen _ _ _ _ I). pose proof (nothing_issued_correct _ _ (ci_sched _ _ _ _ I)) as NI.
  assert (EQ : (forall gr, In gr (groups cf l) -> issued_count (gr_bag gr) = 0) <-> games l = []).
  { split.
    - intros H. destruct (games l) as [|[i rd] gs] eqn:EG; [reflexivity|exfalso]. assert (LI : (i < cc_samples cf)%nat) by (apply (lo_range _ _ L i rd); rewrite EG; left; reflexivity).
      specialize (H (group_of cf l i)). rewrite issued_begun in H. unfold begun in H. rewrite EG in H. cbn [filter] in H.
      assert (of_candidate i (i, rd) = true) as EO by (unfold of_candidate; apply Nat.eqb_refl). rewrite EO in H. cbn [List.length] in H.
      assert (In (group_of cf l i) (groups cf l)) as IG by (apply in_map, in_seq; lia). specialize (H IG). lia.
    - intros E gr IG. apply in_map_iff in IG. destruct IG as (i & <- & _). rewrite issued_begun. unfold begun. rewrite E. reflexivity. }
  destruct (nothing_issued_yet (ct_sched t)) eqn:E.
  - left. split; [|reflexivity]. apply EQ. apply NI. reflexivity.
  - right. split; [|reflexivity]. intros X. pose proof (proj2 NI (proj2 EQ X)). discriminate.
Qed.

(** ** The types of the numbers of wins *)
Definition draws (l : cledger) (i : nat) : bool := existsb (fun g => Nat.eqb (fst (fst g)) i && (snd g =? 1)) (cl_done l).
Lemma draws_spec l i : draws l i = true <-> had_draw l i.
Proof.
  unfold draws, had_draw. rewrite existsb_exists. split.
  - intros ([[j t] n] & I & H). cbn [fst snd] in H. apply andb_true_iff in H. destruct H as [H1 H2]. apply Nat.eqb_eq in H1. apply Z.eqb_eq in H2. subst. exists t. exact I.
  - intros (t & I). exists (i, t, 1). split; [exact I|]. cbn. rewrite Nat.eqb_refl. reflexivity.
Qed.
Definition floats_of (l : cledger) : list bool := map (draws l) (seq 0 (cc_samples cf)).

Lemma set_true_map f i k n : (k <= i < k + n)%nat -> set_true (i - k) (map f (seq k n)) = map (fun j => Nat.eqb i j || f j) (seq k n).
Proof.
  revert k. induction n as [|n IH]; intros k K; [lia|]. cbn [seq map]. destruct (Nat.eqb_spec i k) as [->|N].
  - rewrite Nat.sub_diag. cbn [set_true orb]. f_equal. apply map_ext_in. intros j J. apply in_seq in J. destruct (Nat.eqb_spec k j); [lia|reflexivity].
  - replace (i - k)%nat with (S (i - S k)) by lia. cbn [set_true orb]. rewrite IH by lia. reflexivity.
Qed.
Lemma draws_end l i t n out j : draws (end_game i t n out l) j = (Nat.eqb i j && (n =? 1)) || draws l j.
Proof. reflexivity. Qed.
Lemma floats_end l i t n out : (i < cc_samples cf)%nat -> floats_of (end_game i t n out l) = if n =? 1 then set_true i (floats_of l) else floats_of l.
Proof.
  intros L. unfold floats_of. destruct (n =? 1) eqn:E.
  - pose proof (set_true_map (draws l) i 0 (cc_samples cf) ltac:(lia)) as S. rewrite Nat.sub_0_r in S. rewrite S. apply map_ext. intros j. rewrite draws_end, E, andb_true_r. reflexivity.
  - apply map_ext. intros j. rewrite draws_end, E, andb_false_r. reflexivity.
Qed.
Lemma floats_none l : cl_done l = [] -> floats_of l = repeat false (cc_samples cf).
Proof.
  intros E. unfold floats_of. assert (forall n k, map (draws l) (seq k n) = repeat false n) as H; [|apply H]. intros n. induction n as [|n IH]; intros k; [reflexivity|]. cbn [seq map repeat]. rewrite IH.
  unfold draws. rewrite E. reflexivity.
Qed.
Lemma draw_winner r n i code t : cr_data r = (i, code, t) -> half_points r n -> (n =? 1) = match cr_winner r with None => true | Some _ => false end.
Proof. unfold half_points. intros -> [[E ->]|[[E ->]|(E & _ & ->)]]; [rewrite E; reflexivity|rewrite E; reflexivity|]. destruct (cr_winner r); [reflexivity|congruence]. Qed.

Lemma result_floats_proof t l v r t' a l' : CInv possible cf t l -> process_game_result r t = (t', a) -> cstep possible cf (l, v) (CResulted r a) (l', v) -> CInv possible cf t' l' ->
  result_floats r t (floats_of l) = floats_of l'.
Proof.
  intros I E C I'. unfold result_floats. rewrite E. rewrite (ci_gen _ _ _ _ I), (ci_gen _ _ _ _ I'). pose proof (ci_lok _ _ _ _ I) as L.
  destruct (ci_conf _ _ _ _ I) as (g & c & EC & _). rewrite EC. cbn [with_random cc_generations cc_samples].
  inversion C as [| |? ? ? i code rd n p1 p2 l1 ED EO HP E1 NC|? ? ? i code rd n l1 d ss ED EO HP E1 CO LE NE DR|? ? ? i code rd n l1 d ED EO HP E1 CO LE NE|? ? ? i code rd ED NI| | | | |]; subst; rewrite ED.
  - assert (LI : (i < cc_samples cf)%nat). { apply (lo_range _ _ L i rd). unfold games. rewrite EO. apply in_or_app. right. apply in_or_app. right. left. reflexivity. }
    cbn [end_game cl_gen]. rewrite Nat.eqb_refl. cbn [orb]. change (mkCL (cl_gen l) (cl_dist l) (cl_samples l) ((i, rd, n) :: cl_done l) (p1 ++ p2) true) with (end_game i rd n (p1 ++ p2) l).
    rewrite floats_end by exact LI. rewrite (draw_winner r n i code rd ED HP). destruct (cr_winner r); reflexivity.
  - cbn [cl_gen]. destruct (Nat.eqb_spec (S (cl_gen l)) (cl_gen l)); [lia|]. destruct (Nat.eqb_spec (S (cl_gen l)) (cc_generations cf)); [contradiction|]. cbn [orb].
    rewrite floats_none; reflexivity.
  - assert (LI : (i < cc_samples cf)%nat). { apply (lo_range _ _ L i rd). unfold games. rewrite EO. apply in_or_app. right. left. reflexivity. }
    cbn [cl_gen]. rewrite NE, Nat.eqb_refl, orb_true_r.
    transitivity (floats_of (end_game i rd n [] l)); [|reflexivity]. rewrite floats_end by exact LI. rewrite (draw_winner r n i code rd ED HP). destruct (cr_winner r); reflexivity.
  - reflexivity.
Qed.

(** [f]: present and saved types. *)
Definition Floats (x : cledger * option cledger) (f : list bool * list bool) : Prop :=
  fst f = floats_of (fst x) /\ match snd x with Some v => snd f = floats_of v | None => True end.

Lemma cdo_floats s x c f s' e x' : Sys possible cf s x -> call_ok possible c -> Floats x f -> cdo cf s c = Some (s', e) -> cstep possible cf x e x' -> Sys possible cf s' x' ->
  Floats x' (cfloats cf s c f).
Proof.
  destruct s as [t st], x as [l v], f as [now saved]. intros SY OK [F1 F2] E C SY'. cbn [fst snd] in *. destruct SY as [I H]. destruct SY' as [I' H']. cbn [fst snd] in *.
  destruct c as [|r|n| |g co]; cbn [cdo cfloats] in *.
  - destruct (get_game t) as [t' a]. injection E as <- <-. inversion C; subst; split; cbn [fst snd]; auto.
  - destruct (process_game_result r t) as [t' a] eqn:EP. injection E as <- <-. cbn [fst snd] in *. assert (X : snd x' = v) by (inversion C; reflexivity). destruct x' as [l' v']. cbn [fst snd] in *. subst v'.
    split; cbn [fst snd]; [|exact F2]. rewrite F1. eapply result_floats_proof; eauto.
  - destruct (process_game_error n t) as [t' a]. injection E as <- <-. inversion C; subst; split; cbn [fst snd]; auto.
  - injection E as <- <-. inversion C; subst; split; cbn [fst snd]; auto.
  - destruct st as [st|].
    + destruct (set_status (with_random g co cf) st) as [t'|] eqn:ES; [|discriminate]. injection E as <- <-. destruct v as [v|]; [|contradiction]. inversion C; subst; split; cbn [fst snd]; auto.
    + destruct (set_clean_status (with_random g co cf)) as [t'|] eqn:ES; [|discriminate]. injection E as <- <-. destruct v as [v|]; [contradiction|]. inversion C; subst; split; cbn [fst snd]; auto. symmetry. apply floats_none. reflexivity.
Qed.

Lemma crun_floats_proof cs : forall s x f, Sys possible cf s x -> Forall (call_ok possible) cs -> Floats x f ->
  exists s' es x', crun cf s cs = Some (s', es) /\ csteps possible cf x es x' /\ Sys possible cf s' x' /\ Floats x' (crun_floats cf s cs f).
Proof.
  induction cs as [|c cs IH]; intros s x f SY F FL; [exists s, [], x; split; [reflexivity|]; split; [constructor|]; split; [exact SY|exact FL]|]. inversion F as [|? ? OK F']; subst.
  destruct (cdo_step possible cf cf_ok s x c SY OK) as (s1 & e & x1 & E & C & SY1).
  destruct (IH s1 x1 (cfloats cf s c f) SY1 F') as (s2 & es & x2 & E2 & C2 & SY2 & FL2); [eapply cdo_floats; eauto|].
  exists s2, (e :: es), x2. cbn [crun crun_floats]. rewrite E, E2. split; [reflexivity|]. split; [econstructor; eauto|]. split; [exact SY2|exact FL2].
Qed.

(** ** The reports *)
Lemma even_points l i : LOK cf l -> draws l i = false -> exists n, points l i = 2 * n.
Proof.
  intros L. pose proof (lo_points _ _ L) as LP. unfold draws, points. induction (cl_done l) as [|[[j t] n] gs IH]; intros D; [exists 0; reflexivity|].
  cbn [existsb fst snd] in D. apply orb_false_iff in D. destruct D as [D1 D2]. destruct IH as (m & E); [intros; apply LP; right; assumption|exact D2|].
  cbn [filter game_of fst]. unfold of_candidate at 1. cbn [fst]. destruct (Nat.eqb j i); cbn [andb] in D1; [|exists m; exact E].
  cbn [map snd fold_right]. specialize (LP (j, t, n) (or_introl eq_refl)). cbn [snd] in LP. apply Z.eqb_neq in D1.
  assert (n = 0 \/ n = 2) as [->| ->] by lia; [exists m|exists (m + 1)]; lia.
Qed.
Lemma points_nonneg l i : LOK cf l -> 0 <= points l i.
Proof.
  intros L. pose proof (lo_points _ _ L) as LP. unfold points. induction (cl_done l) as [|[[j t] n] gs IH]; [cbn; lia|].
  cbn [filter game_of fst]. pose proof (LP (j, t, n) (or_introl eq_refl)) as H. cbn [snd] in H.
  assert (0 <= fold_right Z.add 0 (map snd (filter (fun g => of_candidate i (game_of g)) gs))) by (apply IH; intros; apply LP; right; assumption).
  destruct (of_candidate i (j, t)); cbn [map snd fold_right]; lia.
Qed.

Lemma float_text p : 0 <= p -> (exists n, p = 2 * n /\ str_float (5 * p, 1%nat) = str_int n ++ str ".0") \/ (exists n, p = 2 * n + 1 /\ str_float (5 * p, 1%nat) = str_int n ++ str ".5").
Proof.
  intros L. destruct (half_shown p L) as (n & N & [[E S]|[E S]]); [left|right]; exists n; (split; [exact E|]); unfold format_half in S; unfold str_float; rewrite S; cbn [fst snd normalise_dec].
  - replace (5 * p) with (n * 10) by lia. rewrite Z.mod_mul by lia. reflexivity.
  - replace (5 * p) with (5 + n * 10) by lia. rewrite Z.mod_add by lia. reflexivity.
Qed.
Lemma wins_proof l : LOK cf l -> forall n k,
  Forall2 (points_text l) (seq k n) (wins_texts (map (points l) (seq k n)) (map (draws l) (seq k n))).
Proof.
  intros L. induction n as [|n IH]; intros k; [constructor|]. cbn [seq map wins_texts]. constructor; [|apply IH]. unfold points_text, wins_text.
  destruct (draws l k) eqn:E.
  - right. split; [apply draws_spec; exact E|]. exact (float_text _ (points_nonneg l k L)).
  - left. split; [rewrite <- draws_spec; congruence|]. destruct (even_points l k L E) as (m & EP). exists m. split; [exact EP|]. rewrite EP, Z.mul_comm, Z.div_mul by lia. reflexivity.
Qed.

Lemma screen_proof t l : CInv possible cf t l -> exists s, screen_report tie formats show_value t (floats_of l) = Ok s /\ screen_says formats show_value cf l s.
Proof.
  intros I. destruct (ci_conf _ _ _ _ I) as (g & c & EC & _). unfold screen_report. cbv zeta. rewrite EC, (ci_dist _ _ _ _ I), (ci_gen _ _ _ _ I), (ci_wins _ _ _ _ I).
  change (format_distribution tie formats show_value (with_random g c cf) (cl_dist l)) with (format_distribution tie formats show_value cf (cl_dist l)).
  destruct (dist_proof tie formats show_value cf cf_ok (cl_dist l)) as (d & ED & TD). rewrite ED. cbn [bind]. eexists. split; [reflexivity|].
  exists (wins_texts (all_points cf l) (floats_of l)), d. split; [apply wins_proof; exact (ci_lok _ _ _ _ I)|]. split; [exact TD|]. cbv zeta. unfold format_wins, say. cbn [with_random cc_generations map List.concat].
  rewrite app_nil_r, <- !app_assoc. reflexivity.
Qed.
Lemma short_proof rc t l : CInv possible cf t l -> exists s, short_report tie formats show_value rc t (floats_of l) = Ok s /\ short_says formats show_value cf rc l s.
Proof.
  intros I. destruct (screen_proof t l I) as (a & EA & TA). unfold short_report. rewrite EA. cbn [bind]. eexists. split; [reflexivity|]. exists a. split; [exact TA|].
  unfold static_description, say. destruct (rc_description rc) as [[|x d]|]; cbn [List.length Nat.eqb map List.concat app]; rewrite ?app_nil_r, <- ?app_assoc; reflexivity.
Qed.

(** The note for a game. *)
Lemma note_proof t l i rd j : CInv possible cf t l -> job_for cf l i rd j ->
  exists sample values p s, nth_error (cl_samples l) i = Some sample /\ values_for cf sample values /\ cc_maker cf values = Some p /\
    (let candidate := (candidate_code (cl_gen l) i, p) in cj_black j = candidate \/ cj_white j = candidate) /\
    shown_values formats show_value values s /\
    sgf_note formats show_value t (fst (fst (cj_data j))) = Ok (str "Candidate parameters: " ++ s).
Proof.
  intros I (sample & values & p & ES & F & EM & EI & ED & JC). destruct (ci_conf _ _ _ _ I) as (g & c & EC & _).
  destruct (params_proof formats show_value cf cf_ok sample) as (s & EP & vs & FV & TS).
  assert (vs = values). { clear -F FV. unfold values_for in FV. revert vs FV. induction F as [|x v xs vs' E F IH]; intros vs FV; inversion FV; subst; [reflexivity|]. f_equal; [congruence|]. apply IH. assumption. }
  subst vs. exists sample, values, p, s. split; [exact ES|]. split; [exact F|]. split; [exact EM|]. split; [cbv zeta in JC |- *; destruct JC as [(JB & _)|(_ & JW & _)]; auto|]. split; [exact TS|].
  unfold sgf_note. rewrite ED. cbn [fst]. rewrite (ci_samples _ _ _ _ I), ES, EC.
  change (format_optimiser_parameters formats show_value (with_random g c cf) sample) with (format_optimiser_parameters formats show_value cf sample). rewrite EP. reflexivity.
Qed.
End History.
