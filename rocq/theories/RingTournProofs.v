(** Proofs about tournaments run by the ringmaster (C29). *)
From Coq Require Import Permutation.
From Verif Require Import Base Bytes PyStr Dict CommonModel SchedModel GameplayModel JobModel JobSpec JobProofs
  RingModel RingSpec RingProofs RingTourn TournModel TournSpec TournProofs TournConfProofs.

Definition tinv (cf0 : option tconfig) (t : tourn) (l : list job) : Prop :=
  exists a, Inv t a /\ games_ok a /\ Permutation (a_out a) (map j_data l) /\
    (forall j, In j l -> exists m n, In m (cf_matchups (a_config a)) /\ job_of m n j) /\
    match cf0 with Some cf => a_config a = cf | None => True end.
Definition tsaved (st : tstatus) : Prop := exists v, SInv st v /\ NoDup (map fst (sv_done v)).
Definition trecords (x : option tstatus) (t : tourn) : Prop :=
  forall id, get_matchup_results t id = saved_results (match x with Some st => Some (FComplete 0 st) | None => None end) id.

Lemma inv_results t a id : Inv t a -> get_matchup_results t id = results_of id (a_done a).
Proof. intros (_ & _ & (_ & _ & L) & _). exact (L id). Qed.

Lemma inv_sys t a : Inv t a -> SysInv (Some t, None) (Some a, None).
Proof. intros I. split; [exact I|exact Logic.I]. Qed.
Lemma games_aok a : games_ok a -> aok (Some a, None).
Proof. intros I. split; [exact I|exact Logic.I]. Qed.

Lemma dget_map {A B} (f : A -> B) k (d : dict A) : dget k (map (fun kv => (fst kv, f (snd kv))) d) = option_map f (dget k d).
Proof. induction d as [|[k' v] d IH]; cbn [map dget fst snd]; [reflexivity|]. destruct (bytes_eqb k k'); [reflexivity|exact IH]. Qed.

Lemma sinv_results st v id : SInv st v -> saved_results (Some (FComplete 0 st)) id = results_of id (sv_done v).
Proof.
  intros (d & Ed & TB & _ & _ & PK). cbn [saved_results]. rewrite Ed, dget_map. destruct TB as (ND & _ & L). rewrite <- (L id). unfold lookup.
  destruct (dget id d) as [rs|] eqn:E; [|reflexivity]. cbn [option_map]. rewrite map_map.
  transitivity (map (fun r => r) rs); [|apply map_id]. apply map_ext_in. intros r IR.
  assert (In r (results_of id (sv_done v))) as I2 by (rewrite <- (L id); unfold lookup; rewrite E; exact IR).
  unfold results_of in I2. apply in_map_iff in I2. destruct I2 as ([g r'] & E2 & I3). cbn [snd] in E2. subst r'.
  apply filter_In in I3. destruct I3 as [I3 _]. exact (PK _ _ I3).
Qed.

Definition cf_is (cf0 : option tconfig) (cf : tconfig) : Prop := config_ok cf /\ match cf0 with Some c => cf = c | None => True end.

Lemma job_of_data m n j : job_of m n j -> j_data j = (m_id m, n) /\ j_id j = make_game_id m n.
Proof. intros (A & B & _). auto. Qed.

Lemma tournaments_sound cf0 : sound tourn_comp j_id (cf_is cf0) game_answer (tinv cf0) tsaved trecords.
Proof.
  constructor.
  - (* perm *) intros t l l' (a & I & G & P & JL & CF) PL. exists a. split; [exact I|]. split; [exact G|]. split; [rewrite P; apply Permutation_map; exact PL|].
    split; [|exact CF]. intros j IJ. apply JL. eapply Permutation_in; [symmetry; exact PL|exact IJ].
  - (* clean *) intros cf t (CO & C0) E. cbn in E. injection E as <-.
    destruct (start_step (None, None) (None, None) cf CO (conj Logic.I Logic.I)) as (y & A & B).
    cbn [trun_step fst snd] in A, B. inversion A; subst; cbn [fst snd] in *; try congruence.
    + destruct B as [B _]. cbn [fst] in B. split.
      * exists (mkA cf [] [] [] [] []). split; [exact B|]. split; [constructor|]. split; [constructor|]. split; [intros ? []|].
        destruct cf0; [|exact Logic.I]. exact C0.
      * intros id. rewrite (inv_results _ _ _ B). reflexivity.
  - (* load *) intros cf st t (CO & C0) (v & SI & NDv) E. cbn [tourn_comp c_load] in E.
    destruct (set_status_spec cf st v CO SI) as [[F (t' & E' & I)]|[F (e & E')]]; [|congruence]. assert (t' = t) as -> by congruence. split.
    + eexists. split; [exact I|]. split; [unfold games_ok; cbn [a_done a_out]; rewrite app_nil_r; exact NDv|]. split; [constructor|].
      split; [intros ? []|]. destruct cf0; [exact C0|exact Logic.I].
    + intros id. rewrite (inv_results _ _ _ I). cbn [a_done]. symmetry. exact (sinv_results st v id SI).
  - (* status *) intros t l (a & I & G & P & JL & CF). destruct (save_step t a None None (inv_sys _ _ I)) as (y & A & B).
    cbn [trun_step fst snd] in A, B. pose proof (atstep_ok _ _ _ _ A (games_aok _ G)) as K. inversion A; subst; try congruence.
    destruct B as [_ B]. destruct K as [_ K]. cbn [fst snd] in B, K. split; [eexists; split; [exact B|exact K]|].
    intros id. rewrite (inv_results _ _ _ I). symmetry. exact (sinv_results _ _ id B).
  - (* get *) intros t l x (a & I & G & P & JL & CF) RX. destruct (get_step t a None None I (inv_sys _ _ I)) as (y & A & B).
    cbn [tourn_comp c_get]. cbn [trun_step] in A, B. destruct (get_game t) as [t' [[j|]|e]]; cbn [fst snd] in A, B.
    + pose proof (atstep_ok _ _ _ _ A (games_aok _ G)) as K. inversion A as [a0 sv0 ms1 m ms2 n j0 EM OP _ _ NI _ JO| | | | | | | | | | |]; subst.
      destruct B as [B _]. destruct K as [K _]. cbn [fst] in B, K. destruct (job_of_data _ _ _ JO) as [ED EI].
      split; [|split].
      * eexists. split; [exact B|]. split; [exact K|]. cbn [a_out a_config]. split; [cbn [map]; rewrite ED; constructor; exact P|]. split; [|exact CF].
        intros j1 [E|E]; [subst j1|exact (JL _ E)]. exists m, n. split; [rewrite EM; apply in_or_app; right; left; reflexivity|exact JO].
      * intros id. rewrite (inv_results _ _ _ B). cbn [a_done]. rewrite <- (inv_results _ _ _ I). exact (RX id).
      * intros X. apply in_map_iff in X. destruct X as (j1 & E1 & I1). destruct (JL _ I1) as (m1 & n1 & IM1 & JO1).
        destruct (job_of_data _ _ _ JO1) as [ED1 EI1]. rewrite EI, EI1 in E1. apply make_game_id_inj in E1. destruct E1 as [E1 E2].
        unfold games_ok in K. cbn [a_done a_out] in K. apply NoDup_remove_2 in K. apply K. apply in_or_app. right.
        eapply Permutation_in; [symmetry; exact P|]. apply in_map_iff. exists j1. split; [|exact I1]. rewrite ED1, E1, E2. reflexivity.
    + inversion A; subst. destruct B as [B _]. cbn [fst] in B. split; [exists a; auto|].
      intros id. rewrite (inv_results _ _ _ B). rewrite <- (inv_results _ _ _ I). exact (RX id).
    + inversion A.
  - (* report *) intros t l x (a & I & G & P & JL & CF) RX. destruct (report_step t a None None (inv_sys _ _ I)) as (y & A & B).
    cbn [trun_step fst snd] in A, B. pose proof (atstep_ok _ _ _ _ A (games_aok _ G)) as K. inversion A; subst; try congruence.
    destruct B as [B _]. destruct K as [K _]. cbn [fst] in B, K. cbn [tourn_comp c_report]. split.
    + eexists. split; [exact B|]. split; [exact K|]. auto.
    + intros id. rewrite (inv_results _ _ _ B). cbn [a_done]. rewrite <- (inv_results _ _ _ I). exact (RX id).
  - (* result *) intros t j l r (a & I & G & P & JL & CF) (ED & PK). destruct (result_step t a None None r PK (inv_sys _ _ I)) as (y & A & B).
    cbn [trun_step] in A, B. cbn [tourn_comp c_result]. destruct (process_game_result r t) as [t' [[]|e]]; cbn [fst snd] in A, B.
    + exists t'. split; [reflexivity|]. pose proof (atstep_ok _ _ _ _ A (games_aok _ G)) as K.
      inversion A as [| |a0 sv0 r0 o1 o2 id n ED2 EO| | | | | | | | |]; subst.
      destruct B as [B _]. destruct K as [K _]. cbn [fst] in B, K. eexists. split; [exact B|]. split; [exact K|]. cbn [a_out a_config]. split.
      * rewrite EO in P. cbn [map] in P. rewrite <- ED, ED2 in P. apply Permutation_cons_inv with (id, n). rewrite Permutation_middle. exact P.
      * split; [|exact CF]. intros j1 IJ. apply JL. right. exact IJ.
    + exfalso. inversion A as [| | |a0 sv0 r0 id n ED2 NI| | | | | | | |]; subst. apply NI.
      eapply Permutation_in; [symmetry; exact P|]. cbn [map]. left. rewrite <- ED. exact ED2.
  - (* error *) intros t j l n (a & I & G & P & JL & CF). destruct (error_step t a None None j (inv_sys _ _ I)) as (y & A & B).
    cbn [trun_step] in A, B. cbn [tourn_comp c_error]. destruct (process_game_error j t) as [t' [stop retry]] eqn:EE. cbn [fst snd] in A, B.
    pose proof (atstep_ok _ _ _ _ A (games_aok _ G)) as K.
    exists t', stop, retry. split; [reflexivity|]. inversion A; subst; destruct B as [B _]; destruct K as [K _]; cbn [fst] in B, K.
    + eexists. split; [exact B|]. split; [exact K|]. auto.
    + left. exists a. auto.
Qed.

(** When there are no more games, all have been played. *)
Lemma no_game_complete cf t t' : tinv (Some cf) t [] -> get_game t = (t', Ok None) ->
  (forall id, get_matchup_results t' id = get_matchup_results t id) /\ t_config t' = t_config t /\
  forall m, In m (cf_matchups cf) -> exists l, m_games m = Some l /\ l <= Z.of_nat (List.length (get_matchup_results t (m_id m))).
Proof.
  intros (a & I & G & P & JL & CF) E. destruct (get_step t a None None I (inv_sys _ _ I)) as (y & A & B).
  cbn [trun_step] in A, B. rewrite E in A, B. cbn [fst snd] in A, B. inversion A as [|a0 sv0 NO| | | | | | | | | |]; subst. destruct B as [B _]. cbn [fst] in B.
  split; [intros id; rewrite (inv_results _ _ _ B), (inv_results _ _ _ I); reflexivity|]. split.
  { destruct I as (I1 & _), B as (B1 & _). congruence. }
  intros m IM. specialize (NO m IM). unfold open_ in NO. destruct (m_games m) as [l|]; [|exfalso; apply NO; exact Logic.I].
  exists l. split; [reflexivity|]. unfold load, in_hand in NO. cbn [map] in P. apply Permutation_sym, Permutation_nil in P. rewrite P in NO. cbn in NO. rewrite app_nil_r in NO.
  rewrite (inv_results _ _ _ I), results_of_length. unfold game in *. lia.
Qed.

Lemma C29_run_completes_proof x d cf max disp g n ls st ce : (1 <= n)%nat ->
  reach tourn_comp j_id rs_id config_ok game_answer x d -> config_ok cf -> start tourn_comp cf max disp d = Ok g ->
  mrun (ring_source tourn_comp j_id rs_id) (runs j_id rs_id game_answer) (ring_passed ce) n (minit n (g, d)) ls st ->
  ms_pc st = MReturned -> r_stopping (fst (ms_src st)) = false ->
  forall m, In m (cf_matchups cf) ->
    exists l, m_games m = Some l /\ l <= Z.of_nat (List.length (saved_results (d_status (snd (ms_src st))) (m_id m))) /\
      get_matchup_results (r_comp (fst (ms_src st))) (m_id m) = saved_results (d_status (snd (ms_src st))) (m_id m).
Proof.
  intros NP H CO ES HM PC NS m IM.
  assert (good_disk tsaved d) as GD.
  { assert (sound tourn_comp j_id config_ok game_answer (tinv None) tsaved trecords) as SO.
    { destruct (tournaments_sound None) as [X1 X2 X3 X4 X5 X6 X7 X8]. constructor; auto.
      - intros c1 t OC. apply X2. split; [exact OC|exact Logic.I].
      - intros c1 st1 t OC. apply X3. split; [exact OC|exact Logic.I]. }
    exact (proj1 (reach_ok _ _ _ _ _ _ _ _ SO _ _ H)). }
  pose proof (tournaments_sound (Some cf)) as SO.
  destruct (start_ok _ _ _ _ _ _ _ SO cf max disp d g (conj CO eq_refl) GD ES) as [RI _].
  destruct (C28_returns_proof _ _ _ _ _ _ _ NP HM PC) as (_ & _ & _ & _ & _ & HI & cs & EC). rewrite EC in HI.
  destruct (ended _ _ rs_id _ _ _ _ _ SO _ _ _ _ _ HI RI NS) as (c0 & c1 & I0 & EG & RC & OD).
  destruct (no_game_complete cf c0 c1 I0 EG) as (R1 & C1 & CP). destruct (CP m IM) as (l & EL & LE). exists l. split; [exact EL|].
  assert (forall id, get_matchup_results (r_comp (fst (ms_src st))) id = get_matchup_results c0 id) as R2.
  { intros id. destruct RC as [-> | ->]; [apply R1|]. rewrite <- R1. cbn [tourn_comp c_report]. unfold get_matchup_results, write_report. cbn [t_results].
    generalize (cf_matchups (t_config c1)). intros ms. unfold touch_all. generalize (t_results c1). induction ms as [|m1 ms IH]; intros d1; [reflexivity|].
    cbn [fold_left]. rewrite IH. exact (lookup_touch (m_id m1) d1 id). }
  assert (get_matchup_results (r_comp (fst (ms_src st))) (m_id m) = saved_results (d_status (snd (ms_src st))) (m_id m)) as SR.
  { unfold ondisk in OD. destruct (d_status (snd (ms_src st))) as [[v st1|]|]; [|contradiction|].
    - destruct OD as (_ & _ & OD). exact (OD (m_id m)).
    - destruct OD as (_ & OD). exact (OD (m_id m)). }
  split; [|exact SR]. rewrite <- SR, R2. exact LE.
Qed.

Lemma C29_tournaments_are_sound_proof :
  exists inv saved records, sound tourn_comp j_id config_ok game_answer inv saved records /\
    forall t, (records None t <-> forall id, get_matchup_results t id = []) /\
      forall st, records (Some st) t <-> forall void id, get_matchup_results t id = saved_results (Some (FComplete void st)) id.
Proof.
  exists (tinv None), tsaved, trecords. split.
  - destruct (tournaments_sound None) as [X1 X2 X3 X4 X5 X6 X7 X8]. constructor; auto.
    + intros c1 t OC. apply X2. split; [exact OC|exact Logic.I].
    + intros c1 st1 t OC. apply X3. split; [exact OC|exact Logic.I].
  - intros t. split; [reflexivity|]. intros st. unfold trecords. split; [intros H void id; exact (H id)|intros H id; exact (H 0 id)].
Qed.
