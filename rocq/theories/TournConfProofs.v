(** Proofs about control files, game ids and statistics (C26, C27, C30). *)
From Coq Require Import Permutation.
From Verif Require Import Base Bytes PyStr Dict CommonModel SchedModel SchedSpec SchedProofs GroupProofs
  SgfPropsProofs GameplayModel SgfValueProofs TournModel TournSpec TournProofs.

(** ** Game ids *)
Lemma leading_zero_digits c n : forallb is_digit (leading_zero c n) = true /\ digits_val (leading_zero c n) = Z.of_nat n.
Proof.
  destruct (str_int_nonneg (Z.of_nat n) ltac:(lia)) as (V & D & _).
  unfold leading_zero. destruct c; [rewrite zfill_val; split; [apply zfill_digits|]|]; auto.
Qed.

Lemma split_last (sep : ascii) (P : ascii -> bool) a b c d : P sep = false -> forallb P b = true -> forallb P d = true ->
  a ++ sep :: b = c ++ sep :: d -> a = c /\ b = d.
Proof.
  intros PS. revert c. induction a as [|x a IH]; intros [|y c] PB PD E; cbn [app] in E.
  - split; [reflexivity|congruence].
  - exfalso. assert (b = c ++ sep :: d) as -> by congruence. rewrite forallb_app in PB. cbn [forallb] in PB. rewrite PS, andb_false_r in PB. discriminate.
  - exfalso. assert (d = a ++ sep :: b) as -> by congruence. rewrite forallb_app in PD. cbn [forallb] in PD. rewrite PS, andb_false_r in PD. discriminate.
  - assert (x = y) as -> by congruence. destruct (IH c PB PD ltac:(congruence)) as [-> ->]. auto.
Qed.

Lemma make_game_id_inj m1 m2 n1 n2 : make_game_id m1 n1 = make_game_id m2 n2 -> m_id m1 = m_id m2 /\ n1 = n2.
Proof.
  unfold make_game_id. intros E.
  destruct (leading_zero_digits (m_games m1) n1) as [D1 V1], (leading_zero_digits (m_games m2) n2) as [D2 V2].
  destruct (split_last "_"%char is_digit (m_id m1) _ (m_id m2) _ eq_refl D1 D2 E) as [A B]. split; [exact A|].
  apply Nat2Z.inj. rewrite <- V1, <- V2, B. reflexivity.
Qed.

Lemma make_game_id_length m c n : m_games m = Some c -> Z.of_nat n < c ->
  List.length (make_game_id m n) = (List.length (m_id m) + 1 + List.length (str_int (c - 1)))%nat.
Proof.
  intros E H. unfold make_game_id, leading_zero. rewrite E, !app_length. cbn [List.length str].
  destruct (str_int_nonneg (c - 1) ltac:(lia)) as (V & D & N).
  pose proof (digits_val_bound _ D) as B. rewrite V in B.
  destruct (zfill_exact (List.length (str_int (c - 1))) (Z.of_nat n) ltac:(lia)) as (L & _).
  - destruct (str_int (c - 1)); [congruence|cbn [List.length]; lia].
  - rewrite L. cbn. lia.
Qed.

(** ** Jobs in histories *)
Lemma atrun_jobs x es os y : atrun x es os y -> forall j, In j (jobs_of os) -> exists m n, job_of m n j.
Proof.
  induction 1 as [|s e a s1 es os s2 S R IH]; intros j I; [destruct I|]. cbn [jobs_of flat_map] in I. apply in_app_or in I.
  destruct I as [I|I]; [|exact (IH j I)]. destruct S; cbn [In] in I; try contradiction; destruct I as [I|[]]; subst; eauto.
Qed.

Lemma C26_ids_unique_proof es j1 j2 : Forall event_ok es ->
  In j1 (jobs_of (snd (trun (None, None) es))) -> In j2 (jobs_of (snd (trun (None, None) es))) ->
  j_id j1 = j_id j2 -> j_data j1 = j_data j2.
Proof.
  intros OK I1 I2 E. destruct (C25_refines_proof es OK) as (y & R & _).
  destruct (atrun_jobs _ _ _ _ R _ I1) as (m1 & n1 & D1 & N1 & _), (atrun_jobs _ _ _ _ R _ I2) as (m2 & n2 & D2 & N2 & _).
  rewrite N1, N2 in E. apply make_game_id_inj in E. destruct E as [A B]. congruence.
Qed.

(** ** Playoffs *)
Lemma matchup_from_config_ok players number c players' m : matchup_from_config players number c = Ok (players', m) ->
  m_player_1 m = mc_player_1 c /\ In (mc_player_1 c) players /\ In (mc_player_2 c) players /\
  m_player_2 m = (if bytes_eqb (mc_player_1 c) (mc_player_2 c) then mc_player_2 c ++ str "#2" else mc_player_2 c) /\
  In (m_player_2 m) players' /\ incl players players' /\
  m_id m = (match mc_id c with Some i => i | None => str_int (Z.of_nat number) end) /\
  m_alternating m = mc_alternating c /\ m_games m = mc_games c /\ m_settings m = mc_settings c.
Proof.
  unfold matchup_from_config. destruct (bmem_spec (mc_player_1 c) players) as [I1|]; [|discriminate].
  destruct (bmem_spec (mc_player_2 c) players) as [I2|]; [|discriminate]. cbn [negb].
  set (p2 := if bytes_eqb (mc_player_1 c) (mc_player_2 c) then mc_player_2 c ++ str "#2" else mc_player_2 c).
  unfold make_matchup. destruct (validate_handicap _ _ _) eqn:V; cbn [bind]; [|discriminate].
  intros E. injection E as <- <-. cbn [m_player_1 m_player_2 m_id m_alternating m_games m_settings].
  do 4 (split; [auto|]). split; [|split; [|auto]].
  - destruct (bmem_spec p2 players); [assumption|]. apply in_or_app. right. left. reflexivity.
  - destruct (bmem_spec p2 players); [apply incl_refl|]. apply incl_appl, incl_refl.
Qed.

Definition good_matchup (players : list bytes) (m : matchup) : Prop :=
  In (m_player_1 m) players /\ In (m_player_2 m) players /\ m_player_1 m <> m_player_2 m.

Lemma good_mono p q m : incl p q -> good_matchup p m -> good_matchup q m.
Proof. intros I (A & B & C). split; [apply I; exact A|]. split; [apply I; exact B|exact C]. Qed.

Lemma app_self {A} (a b : list A) : a = a ++ b -> b = [].
Proof. intros E. apply (f_equal (@List.length A)) in E. rewrite app_length in E. destruct b; [reflexivity|cbn [List.length] in E; lia]. Qed.

Lemma playoff_matchups_ok l : forall players number acc players' ms,
  playoff_matchups players number l acc = Ok (players', ms) ->
  NoDup (map m_id acc) -> Forall (good_matchup players) acc ->
  incl players players' /\ NoDup (map m_id ms) /\ Forall (good_matchup players') ms /\
  exists new, ms = acc ++ new /\ List.length new = List.length l.
Proof.
  induction l as [|c l IH]; intros players number acc players' ms E ND F; cbn [playoff_matchups] in E.
  - injection E as <- <-. split; [apply incl_refl|]. split; [exact ND|]. split; [exact F|]. exists []. rewrite app_nil_r. auto.
  - destruct (matchup_from_config players number c) as [[p1 m]|] eqn:EM; cbn [bind] in E; [|discriminate].
    destruct (bmem_spec (m_id m) (map m_id acc)) as [|NI]; [discriminate|].
    destruct (matchup_from_config_ok _ _ _ _ _ EM) as (A1 & A2 & A3 & A4 & A5 & A6 & _).
    destruct (IH _ _ _ _ _ E) as (B1 & B2 & B3 & new & B4 & B5).
    + rewrite map_app. cbn [map]. eapply Permutation_NoDup; [apply Permutation_cons_append|]. constructor; assumption.
    + apply Forall_app. split; [eapply Forall_impl; [|exact F]; intros; eapply good_mono; eauto|]. constructor; [|constructor].
      split; [rewrite A1; apply A6; exact A2|]. split; [exact A5|]. rewrite A1, A4.
      destruct (bytes_eqb_spec (mc_player_1 c) (mc_player_2 c)) as [Q|Q]; [|exact Q]. intros X. rewrite Q in X. apply app_self in X. discriminate.
    + split; [eapply incl_tran; eauto|]. split; [exact B2|]. split; [exact B3|]. exists (m :: new).
      rewrite B4, <- app_assoc. cbn [app List.length]. split; [reflexivity|congruence].
Qed.

Lemma playoff_config_ok players l cf : playoff_config players l = Ok cf ->
  config_ok cf /\ (forall m, In m (cf_matchups cf) -> m_player_1 m <> m_player_2 m) /\
  List.length (cf_matchups cf) = List.length l /\ incl players (cf_players cf).
Proof.
  unfold playoff_config. destruct l as [|c l]; [discriminate|].
  destruct (playoff_matchups players 0 (c :: l) []) as [[p ms]|] eqn:E; cbn [bind]; [|discriminate].
  intros X. injection X as <-. cbn [fst snd cf_matchups cf_players].
  destruct (playoff_matchups_ok _ _ _ _ _ _ E) as (A & B & C & new & D & L); [constructor|constructor|].
  rewrite Forall_forall in C. unfold config_ok. cbn [cf_matchups cf_players]. cbn [app] in D. subst new. split; [|split; [|split]]; auto.
  - split; [exact B|]. intros m I. destruct (C m I) as (? & ? & _). auto.
  - intros m I. apply (C m I).
Qed.

(** ** All-play-alls *)
Definition upper (c : ascii) : bool := (65 <=? ord c) && (ord c <=? 90).

Lemma let_upper n : 0 <= n < 26 -> upper (let_ n) = true.
Proof. intros H. unfold upper, let_. rewrite ord_chr by lia. destruct (Z.leb_spec 65 (65 + n)), (Z.leb_spec (65 + n) 90); auto; lia. Qed.

Lemma let_inj a b : 0 <= a < 26 -> 0 <= b < 26 -> let_ a = let_ b -> a = b.
Proof. intros A B E. apply (f_equal ord) in E. unfold let_ in E. rewrite !ord_chr in E by lia. lia. Qed.

Lemma short_code_spec i : (i < 702)%nat -> exists c, short_code i = Ok c /\ forallb upper c = true.
Proof.
  intros H. unfold short_code. destruct (Z.ltb_spec (Z.of_nat i) 26).
  - eexists. split; [reflexivity|]. cbn [forallb]. rewrite let_upper by lia. reflexivity.
  - destruct (Z.ltb_spec (Z.of_nat i) (26 * 27)); [|lia]. eexists. split; [reflexivity|]. cbn [forallb].
    rewrite !let_upper; [reflexivity| |].
    + apply Z.mod_pos_bound. lia.
    + pose proof (Z.div_lt_upper_bound (Z.of_nat i) 26 27 ltac:(lia) ltac:(lia)).
      pose proof (Z.div_le_lower_bound (Z.of_nat i) 26 1 ltac:(lia) ltac:(lia)). lia.
Qed.

Lemma short_code_upper i c : short_code i = Ok c -> forallb upper c = true.
Proof.
  intros H. destruct (short_code_spec i) as (c' & E & U); [|congruence].
  unfold short_code in H. destruct (Z.ltb_spec (Z.of_nat i) 26); [lia|]. destruct (Z.ltb_spec (Z.of_nat i) (26 * 27)); [lia|discriminate].
Qed.

Lemma short_code_inj i j c : short_code i = Ok c -> short_code j = Ok c -> i = j.
Proof.
  unfold short_code. intros A B.
  destruct (Z.ltb_spec (Z.of_nat i) 26) as [I1|I1], (Z.ltb_spec (Z.of_nat j) 26) as [J1|J1].
  - injection A as <-. injection B as B. apply let_inj in B; lia.
  - injection A as <-. destruct (Z.of_nat j <? 26 * 27); discriminate.
  - injection B as <-. destruct (Z.of_nat i <? 26 * 27); discriminate.
  - destruct (Z.ltb_spec (Z.of_nat i) (26 * 27)) as [I2|]; [|discriminate]. destruct (Z.ltb_spec (Z.of_nat j) (26 * 27)) as [J2|]; [|discriminate].
    assert (Ok [let_ (Z.of_nat i / 26 - 1); let_ (Z.of_nat i mod 26)] = Ok [let_ (Z.of_nat j / 26 - 1); let_ (Z.of_nat j mod 26)]) as E by congruence.
    injection E as E1 E2.
    pose proof (Z.div_lt_upper_bound (Z.of_nat i) 26 27 ltac:(lia) ltac:(lia)).
    pose proof (Z.div_le_lower_bound (Z.of_nat i) 26 1 ltac:(lia) ltac:(lia)).
    pose proof (Z.div_lt_upper_bound (Z.of_nat j) 26 27 ltac:(lia) ltac:(lia)).
    pose proof (Z.div_le_lower_bound (Z.of_nat j) 26 1 ltac:(lia) ltac:(lia)).
    pose proof (Z.mod_pos_bound (Z.of_nat i) 26 ltac:(lia)). pose proof (Z.mod_pos_bound (Z.of_nat j) 26 ltac:(lia)).
    apply let_inj in E1; [|lia|lia]. apply let_inj in E2; [|lia|lia].
    pose proof (Z.div_mod (Z.of_nat i) 26 ltac:(lia)). pose proof (Z.div_mod (Z.of_nat j) 26 ltac:(lia)). lia.
Qed.

Lemma split_first (sep : ascii) (P : ascii -> bool) a b c d : P sep = false -> forallb P a = true -> forallb P c = true ->
  a ++ sep :: b = c ++ sep :: d -> a = c /\ b = d.
Proof.
  intros PS. revert c. induction a as [|x a IH]; intros [|y c] PA PC E; cbn [app forallb] in *.
  - split; [reflexivity|congruence].
  - exfalso. assert (y = sep) as -> by congruence. rewrite PS in PC. discriminate.
  - exfalso. assert (x = sep) as -> by congruence. rewrite PS in PA. discriminate.
  - assert (x = y) as -> by congruence. apply andb_prop in PA, PC. destruct (IH c (proj2 PA) (proj2 PC) ltac:(congruence)) as [-> ->]. auto.
Qed.

Lemma matchup_id_inj a b c d : forallb upper a = true -> forallb upper c = true ->
  get_matchup_id a b = get_matchup_id c d -> a = c /\ b = d.
Proof. intros A C E. apply (split_first "v"%char upper a b c d); auto. Qed.

(** The competitors *)
Lemma competitor_specs_ok players l : forall i seen cs, competitor_specs players i l seen = Ok cs ->
  map snd cs = l /\ NoDup l /\ (forall p, In p l -> In p players /\ ~ In p seen) /\
  (forall k c p, nth_error cs k = Some (c, p) -> short_code (i + k) = Ok c).
Proof.
  induction l as [|p l IH]; intros i seen cs E; cbn [competitor_specs] in E.
  - injection E as <-. split; [reflexivity|]. split; [constructor|]. split; [intros ? []|]. intros [|k]; discriminate.
  - destruct (bmem_spec p players) as [I|]; [|discriminate]. cbn [negb] in E.
    destruct (short_code i) as [code|] eqn:EC; [|discriminate]. destruct (bmem_spec p seen) as [|NI]; [discriminate|].
    destruct (competitor_specs players (S i) l (p :: seen)) as [tl|] eqn:ET; cbn [bind] in E; [|discriminate].
    injection E as <-. destruct (IH _ _ _ ET) as (A & B & C & D). cbn [map snd]. split; [congruence|]. split; [|split].
    + constructor; [|exact B]. intros X. destruct (C p X) as [_ Y]. apply Y. left. reflexivity.
    + intros q [X|X]; [subst; auto|]. destruct (C q X) as [Y Z]. split; [exact Y|]. intros W. apply Z. right. exact W.
    + intros [|k] c q X; cbn [nth_error] in X.
      * injection X as <- <-. rewrite Nat.add_0_r. exact EC.
      * replace (i + S k)%nat with (S i + k)%nat by lia. eapply D. exact X.
Qed.

Lemma competitor_specs_total players l : forall i seen, (i + List.length l <= 702)%nat ->
  (forall p, In p l -> In p players /\ ~ In p seen) -> NoDup l -> exists cs, competitor_specs players i l seen = Ok cs.
Proof.
  induction l as [|p l IH]; intros i seen H A ND; cbn [competitor_specs]; [eauto|]. cbn [List.length] in H.
  inversion ND as [|? ? N ND']; subst. destruct (A p (or_introl eq_refl)) as [A1 A2].
  destruct (bmem_spec p players); [|contradiction]. cbn [negb].
  destruct (short_code_spec i ltac:(lia)) as (c & -> & _). destruct (bmem_spec p seen); [contradiction|].
  destruct (IH (S i) (p :: seen) ltac:(lia)) as (cs & ->); [|exact ND'|cbn [bind]; eauto].
  intros q Q. destruct (A q (or_intror Q)) as [B1 B2]. split; [exact B1|]. intros [X|X]; [subst; contradiction|contradiction].
Qed.

Definition pair_up (rounds : option Z) (s : settings) (c1 c2 : bytes * bytes) : matchup :=
  mkM (get_matchup_id (fst c1) (fst c2)) (snd c1) (snd c2) true rounds s.
Fixpoint pairs_up (rounds : option Z) (s : settings) (l : list (bytes * bytes)) : list matchup :=
  match l with [] => [] | c :: rest => map (pair_up rounds s c) rest ++ pairs_up rounds s rest end.

Lemma matchups_with_eq rounds s c1 l : s_handicap s = None -> matchups_with rounds s c1 l = Ok (map (pair_up rounds s c1) l).
Proof.
  intros H. induction l as [|c2 l IH]; [reflexivity|]. cbn [matchups_with]. unfold make_matchup, validate_handicap. rewrite H. cbn [bind].
  rewrite IH. reflexivity.
Qed.

Lemma all_matchups_eq rounds s l : s_handicap s = None -> all_matchups rounds s l = Ok (pairs_up rounds s l).
Proof.
  intros H. induction l as [|c l IH]; [reflexivity|]. cbn [all_matchups pairs_up]. rewrite matchups_with_eq by exact H. cbn [bind]. rewrite IH. reflexivity.
Qed.

Lemma pairs_up_length rounds s l : 2 * Z.of_nat (List.length (pairs_up rounds s l)) = Z.of_nat (List.length l) * (Z.of_nat (List.length l) - 1).
Proof. induction l as [|c l IH]; [reflexivity|]. cbn [pairs_up]. rewrite app_length, map_length. cbn [List.length]. lia. Qed.

Lemma pairs_up_In rounds s l m : In m (pairs_up rounds s l) -> exists l1 c1 l2 c2 l3, l = l1 ++ c1 :: l2 ++ c2 :: l3 /\ m = pair_up rounds s c1 c2.
Proof.
  induction l as [|c l IH]; intros I; [destruct I|]. cbn [pairs_up] in I. apply in_app_or in I. destruct I as [I|I].
  - apply in_map_iff in I. destruct I as (c2 & <- & I). apply in_split in I. destruct I as (l2 & l3 & ->). exists [], c, l2, c2, l3. auto.
  - destruct (IH I) as (l1 & c1 & l2 & c2 & l3 & -> & E). exists (c :: l1), c1, l2, c2, l3. auto.
Qed.

Lemma exactly_one_app_l l l' a b : exactly_one_meeting l a b -> (forall m, In m l' -> ~ meets m a b) -> exactly_one_meeting (l ++ l') a b.
Proof.
  intros (l1 & m & l2 & -> & M & N) H. exists l1, m, (l2 ++ l'). rewrite <- app_assoc. split; [reflexivity|]. split; [exact M|].
  intros m'. rewrite app_assoc, in_app_iff. intros [X|X]; auto.
Qed.
Lemma exactly_one_app_r l l' a b : exactly_one_meeting l' a b -> (forall m, In m l -> ~ meets m a b) -> exactly_one_meeting (l ++ l') a b.
Proof.
  intros (l1 & m & l2 & -> & M & N) H. exists (l ++ l1), m, l2. rewrite <- app_assoc. split; [reflexivity|]. split; [exact M|].
  intros m'. rewrite <- app_assoc, in_app_iff. intros [X|X]; auto.
Qed.
Lemma exactly_one_sym l a b : exactly_one_meeting l a b -> exactly_one_meeting l b a.
Proof.
  intros (l1 & m & l2 & E & M & N). exists l1, m, l2. split; [exact E|]. split; [unfold meets in *; tauto|].
  intros m' I X. apply (N m' I). unfold meets in *. tauto.
Qed.

Lemma one_with rounds s c p l : NoDup (snd c :: map snd l) -> In p (map snd l) -> exactly_one_meeting (map (pair_up rounds s c) l) (snd c) p.
Proof.
  intros ND I. apply in_map_iff in I. destruct I as (c2 & <- & I). apply in_split in I. destruct I as (l1 & l2 & ->).
  inversion ND as [|? ? N ND']; subst. rewrite map_app in ND'. cbn [map] in ND'. apply NoDup_remove_2 in ND'.
  exists (map (pair_up rounds s c) l1), (pair_up rounds s c c2), (map (pair_up rounds s c) l2).
  rewrite map_app. cbn [map]. split; [reflexivity|]. split; [left; auto|].
  intros m'. rewrite <- map_app, in_map_iff. intros (c3 & <- & J) [[A B]|[A B]]; cbn [pair_up m_player_1 m_player_2] in A, B.
  - apply ND'. rewrite <- map_app, <- B. apply in_map. exact J.
  - apply N. rewrite A. rewrite map_app. apply in_or_app. right. left. reflexivity.
Qed.

Lemma pairs_up_one rounds s l : NoDup (map snd l) -> forall a b, In a (map snd l) -> In b (map snd l) -> a <> b ->
  exactly_one_meeting (pairs_up rounds s l) a b.
Proof.
  induction l as [|c l IH]; intros ND a b; [intros []|]. cbn [pairs_up map]. cbn [map] in ND. inversion ND as [|? ? N ND']; subst.
  assert (forall x y m, In m (pairs_up rounds s l) -> x = snd c \/ y = snd c -> ~ meets m x y) as Far.
  { intros x y m I E M. destruct (pairs_up_In _ _ _ _ I) as (l1 & c1 & l2 & c2 & l3 & El & ->).
    assert (In (snd c1) (map snd l)) as I1 by (apply in_map; rewrite El; apply in_or_app; right; left; reflexivity).
    assert (In (snd c2) (map snd l)) as I2 by (apply in_map; rewrite El; apply in_or_app; right; right; apply in_or_app; right; left; reflexivity).
    destruct M as [[A B]|[A B]]; cbn [pair_up m_player_1 m_player_2] in A, B; destruct E as [E|E]; congruence. }
  intros [A|A] [B|B] D.
  - congruence.
  - subst a. apply exactly_one_app_l; [apply one_with; assumption|]. intros m I. apply Far; auto.
  - subst b. apply exactly_one_sym. apply exactly_one_app_l; [apply one_with; assumption|]. intros m I. apply Far; auto.
  - apply exactly_one_app_r; [apply IH; assumption|]. intros m I [[X Y]|[X Y]]; apply in_map_iff in I; destruct I as (c2 & <- & _);
      cbn [pair_up m_player_1 m_player_2] in X, Y; congruence.
Qed.

Lemma pairs_up_ids rounds s l : NoDup (map fst l) -> Forall (fun c => forallb upper (fst c) = true) l -> NoDup (map m_id (pairs_up rounds s l)).
Proof.
  induction l as [|c l IH]; intros ND U; [constructor|]. cbn [pairs_up map] in *. inversion ND as [|? ? N ND']; subst. inversion U as [|? ? U1 U2]; subst.
  rewrite map_app.
  replace (map m_id (map (pair_up rounds s c) l)) with (map (get_matchup_id (fst c)) (map fst l)) by (rewrite !map_map; reflexivity).
  apply NoDup_app_disj; [|apply IH; assumption|].
  - apply FinFun.Injective_map_NoDup; [|exact ND'].
    intros x y E. apply matchup_id_inj in E; tauto.
  - intros x X Y. apply in_map_iff in X, Y. destruct X as (k2 & <- & X), Y as (m & E & Y).
    destruct (pairs_up_In _ _ _ _ Y) as (l1 & c1 & l2 & c3 & l3 & El & ->). cbn [pair_up m_id] in E.
    assert (In c1 l) as I1 by (rewrite El; apply in_or_app; right; left; reflexivity).
    apply matchup_id_inj in E; [|rewrite Forall_forall in U2; apply U2; exact I1|exact U1].
    apply N. rewrite <- (proj1 E). apply in_map. exact I1.
Qed.

Lemma allplayall_eq players competitors rounds s cf : allplayall_config players competitors rounds s = Ok cf ->
  exists cs s', competitor_specs players 0 competitors [] = Ok cs /\ s_handicap s' = None /\
    cf = mkCf players (pairs_up rounds s' cs) (Some (map snd cs)) /\ competitors <> [].
Proof.
  unfold allplayall_config. destruct competitors as [|p competitors]; [discriminate|].
  destruct (competitor_specs players 0 (p :: competitors) []) as [cs|]; cbn [bind]; [|discriminate].
  set (s' := mkSet _ _ _ _ _ _ _). rewrite all_matchups_eq by reflexivity. cbn [bind]. intros E. injection E as <-.
  exists cs, s'. split; [reflexivity|]. split; [reflexivity|]. split; [reflexivity|]. discriminate.
Qed.

Lemma codes_distinct cs i : (forall k c p, nth_error cs k = Some (c, p) -> short_code (i + k) = Ok c) -> NoDup (map (@fst bytes bytes) cs).
Proof.
  intros H. apply NoDup_nth_error. intros a b L E. rewrite map_length in L. rewrite !nth_error_map in E.
  destruct (nth_error cs a) as [[c p]|] eqn:EA; [|apply nth_error_None in EA; lia].
  destruct (nth_error cs b) as [[c2 p2]|] eqn:EB; [|discriminate]. cbn [option_map fst] in E. injection E as <-.
  pose proof (short_code_inj _ _ _ (H _ _ _ EA) (H _ _ _ EB)). lia.
Qed.

Lemma C27_covers_proof players competitors rounds s cf : allplayall_config players competitors rounds s = Ok cf ->
  config_ok cf /\ NoDup competitors /\ cf_competitors cf = Some competitors /\
  (forall m, In m (cf_matchups cf) -> In (m_player_1 m) competitors /\ In (m_player_2 m) competitors /\
     m_player_1 m <> m_player_2 m /\ m_games m = rounds /\ m_alternating m = true) /\
  (forall a b, In a competitors -> In b competitors -> a <> b -> exactly_one_meeting (cf_matchups cf) a b) /\
  2 * Z.of_nat (List.length (cf_matchups cf)) = Z.of_nat (List.length competitors) * (Z.of_nat (List.length competitors) - 1).
Proof.
  intros H. destruct (allplayall_eq _ _ _ _ _ H) as (cs & s' & EC & _ & -> & _). cbn [cf_matchups cf_competitors].
  destruct (competitor_specs_ok _ _ _ _ _ EC) as (A & B & C & D). subst competitors.
  assert (forall m, In m (pairs_up rounds s' cs) -> In (m_player_1 m) (map snd cs) /\ In (m_player_2 m) (map snd cs) /\
     m_player_1 m <> m_player_2 m /\ m_games m = rounds /\ m_alternating m = true) as M.
  { intros m I. destruct (pairs_up_In _ _ _ _ I) as (l1 & c1 & l2 & c2 & l3 & El & ->). cbn [pair_up m_player_1 m_player_2 m_games m_alternating].
    rewrite El in *. split; [apply in_map, in_or_app; right; left; reflexivity|].
    split; [apply in_map, in_or_app; right; right; apply in_or_app; right; left; reflexivity|]. split; [|auto].
    rewrite map_app in B. cbn [map] in B. apply NoDup_remove_2 in B. intros X. apply B. rewrite X. apply in_or_app. right.
    apply in_map, in_or_app; right; left; reflexivity. }
  split; [split|split; [exact B|split; [reflexivity|split; [exact M|split]]]].
  - apply pairs_up_ids; [eapply codes_distinct; exact D|]. rewrite Forall_forall. intros [c p] I. cbn [fst].
    apply In_nth_error in I. destruct I as (k & I). eapply short_code_upper. eapply D. exact I.
  - cbn [cf_matchups cf_players]. intros m I. destruct (M m I) as (X & Y & _). split; [apply C; exact X|apply C; exact Y].
  - apply pairs_up_one. exact B.
  - rewrite pairs_up_length, map_length. reflexivity.
Qed.

Lemma C27_accepted_proof players competitors rounds s :
  (exists cf, allplayall_config players competitors rounds s = Ok cf) <->
  competitors <> [] /\ (List.length competitors <= 702)%nat /\ NoDup competitors /\ incl competitors players.
Proof.
  split.
  - intros (cf & H). destruct (allplayall_eq _ _ _ _ _ H) as (cs & s' & EC & _ & _ & NE).
    destruct (competitor_specs_ok _ _ _ _ _ EC) as (A & B & C & D). split; [exact NE|]. split; [|split; [exact B|intros p I; apply C; exact I]].
    destruct (le_lt_dec (List.length competitors) 702) as [L|L]; [exact L|exfalso].
    assert (702 < List.length cs)%nat as L2 by (rewrite <- A, map_length in L; exact L).
    destruct (nth_error cs 702) as [[c p]|] eqn:E; [|apply nth_error_None in E; lia]. specialize (D _ _ _ E). vm_compute in D. discriminate.
  - intros (NE & L & ND & I). unfold allplayall_config. destruct competitors as [|p l]; [congruence|].
    destruct (competitor_specs_total players (p :: l) 0 [] ltac:(lia)) as (cs & ->); [|exact ND|].
    + intros q Q. split; [apply I; exact Q|intros []].
    + cbn [bind]. rewrite all_matchups_eq by reflexivity. cbn [bind]. eauto.
Qed.

Lemma sum_const {A} (f : A -> Z) r l : (forall x, In x l -> f x = r) -> sum (map f l) = r * Z.of_nat (List.length l).
Proof.
  induction l as [|x l IH]; intros H; cbn [map sum fold_right List.length]; [lia|]. fold (sum (map f l)).
  rewrite (H x (or_introl eq_refl)), IH by (intros y Y; apply H; right; exact Y). lia.
Qed.

Lemma C27_expected_proof players competitors rounds s cf : allplayall_config players competitors rounds s = Ok cf ->
  (2 <= List.length competitors)%nat ->
  count_games_expected cf = Ok (match rounds with
    | None => None
    | Some _ => Some (sum (map (fun m => match m_games m with Some g => g | None => 0 end) (cf_matchups cf)))
    end).
Proof.
  intros H L. destruct (C27_covers_proof _ _ _ _ _ H) as (_ & _ & EC & M & _ & N). unfold count_games_expected. rewrite EC.
  destruct (cf_matchups cf) as [|m ms] eqn:EM.
  - cbn [List.length] in N. nia.
  - destruct (M m (or_introl eq_refl)) as (_ & _ & _ & -> & _). destruct rounds as [r|]; [|reflexivity]. f_equal. f_equal.
    rewrite (sum_const _ r) by (intros x X; destruct (M x X) as (_ & _ & _ & -> & _); reflexivity).
    rewrite <- Z.mul_assoc, <- N. replace (r * (2 * Z.of_nat (List.length (m :: ms)))) with (r * Z.of_nat (List.length (m :: ms)) * 2) by lia.
    apply Z.div_mul. lia.
Qed.

(** ** Statistics *)
Lemma count_rel {A B} (R : A -> B -> Prop) (f : A -> bool) (g : B -> bool) l rs : Forall2 R l rs ->
  (forall x y, R x y -> f x = g y) -> count g rs = how_many f l.
Proof.
  intros F H. unfold count, how_many. f_equal. induction F as [|x y l rs HR F IH]; [reflexivity|]. cbn [filter].
  rewrite (H x y HR). destruct (g y); cbn [List.length]; congruence.
Qed.

Lemma C30_counts_proof p1 p2 gs rs : p1 <> p2 -> Forall2 (records p1 p2) gs rs ->
  let s := matchup_stats rs p1 p2 in
  total s = Z.of_nat (List.length gs) /\
  unknown s = how_many is_unknown gs /\
  wins_1 s = 2 * how_many won_by_first gs + how_many is_jigo gs /\
  wins_2 s = 2 * how_many won_by_second gs + how_many is_jigo gs /\
  forfeits_1 s = how_many (fun g => won_by_second g && pl_forfeit g) gs /\
  forfeits_2 s = how_many (fun g => won_by_first g && pl_forfeit g) gs /\
  played_1b s = how_many pl_first_black gs /\ played_2w s = how_many pl_first_black gs /\
  played_1w s = how_many (fun g => negb (pl_first_black g)) gs /\ played_2b s = how_many (fun g => negb (pl_first_black g)) gs /\
  (by_colour s = None <-> played_1b s = 0 \/ played_1w s = 0) /\
  forall br, by_colour s = Some br ->
    wins_b br = 2 * how_many (won_as Black) gs + how_many is_jigo gs /\
    wins_w br = 2 * how_many (won_as White) gs + how_many is_jigo gs /\
    wins_1b br = 2 * how_many (fun g => won_by_first g && pl_first_black g) gs + how_many is_jigo gs /\
    wins_1w br = 2 * how_many (fun g => won_by_first g && negb (pl_first_black g)) gs + how_many is_jigo gs /\
    wins_2b br = 2 * how_many (fun g => won_by_second g && negb (pl_first_black g)) gs + how_many is_jigo gs /\
    wins_2w br = 2 * how_many (fun g => won_by_second g && pl_first_black g) gs + how_many is_jigo gs.
Proof.
  intros D F s.
  assert (bytes_eqb p1 p1 = true) as E11 by apply bytes_eqb_refl.
  assert (bytes_eqb p2 p2 = true) as E22 by apply bytes_eqb_refl.
  assert (bytes_eqb p1 p2 = false) as E12 by (destruct (bytes_eqb_spec p1 p2); [contradiction|reflexivity]).
  assert (bytes_eqb p2 p1 = false) as E21 by (destruct (bytes_eqb_spec p2 p1); [congruence|reflexivity]).
  unfold s, matchup_stats. cbn [total unknown wins_1 wins_2 forfeits_1 forfeits_2 played_1b played_1w played_2b played_2w by_colour].
  assert (Z.of_nat (List.length rs) = Z.of_nat (List.length gs)) as EL.
  { f_equal. clear - F. induction F; cbn [List.length]; congruence. }
  Ltac cr := match goal with F : Forall2 ?R _ _ |- _ => erewrite !(count_rel R _ _ _ _ F) end.
  assert (forall f g, (forall x y, records p1 p2 x y -> f x = g y) -> count g rs = how_many f gs) as CR
    by (intros f g H; exact (count_rel _ _ _ _ _ F H)).
  assert (forall x y, records p1 p2 x y ->
    gr_jigo y = is_jigo x /\ gr_unknown y = is_unknown x /\ option_bytes_eqb (gr_winning_player y) p1 = won_by_first x /\
    option_bytes_eqb (gr_winning_player y) p2 = won_by_second x /\ gr_forfeit y = pl_forfeit x /\
    bytes_eqb (gr_player_b y) p1 = pl_first_black x /\ bytes_eqb (gr_player_w y) p2 = pl_first_black x /\
    bytes_eqb (gr_player_w y) p1 = negb (pl_first_black x) /\ bytes_eqb (gr_player_b y) p2 = negb (pl_first_black x) /\
    option_colour_eqb (gr_winner y) Black = won_as Black x /\ option_colour_eqb (gr_winner y) White = won_as White x) as Q.
  { intros [fb o ff] y ((A & B & C) & E). cbn [pl_first_black pl_outcome pl_forfeit] in *.
    unfold gr_unknown, is_jigo, is_unknown, won_by_first, won_by_second, won_as. cbn [pl_first_black pl_outcome pl_forfeit].
    rewrite A, B, E. destruct fb, o as [[]| |]; destruct C as (C1 & C2 & C3); rewrite C1, C2, C3; cbn [option_bytes_eqb option_colour_eqb negb];
      rewrite ?E11, ?E22, ?E12, ?E21; do 10 (split; [reflexivity|]); reflexivity. }
  rewrite !(CR is_jigo gr_jigo), (CR is_unknown gr_unknown) by (intros x y H; destruct (Q x y H) as (? & ? & ? & ? & ? & ? & ? & ? & ? & ? & ?); congruence).
  rewrite (CR won_by_first (fun r => option_bytes_eqb (gr_winning_player r) p1)) by (intros x y H; destruct (Q x y H) as (? & ? & ? & ? & ? & ? & ? & ? & ? & ? & ?); congruence).
  rewrite (CR won_by_second (fun r => option_bytes_eqb (gr_winning_player r) p2)) by (intros x y H; destruct (Q x y H) as (? & ? & ? & ? & ? & ? & ? & ? & ? & ? & ?); congruence).
  rewrite (CR (fun g => won_by_second g && pl_forfeit g) (fun r => option_bytes_eqb (gr_winning_player r) p2 && gr_forfeit r)) by (intros x y H; destruct (Q x y H) as (? & ? & ? & ? & ? & ? & ? & ? & ? & ? & ?); congruence).
  rewrite (CR (fun g => won_by_first g && pl_forfeit g) (fun r => option_bytes_eqb (gr_winning_player r) p1 && gr_forfeit r)) by (intros x y H; destruct (Q x y H) as (? & ? & ? & ? & ? & ? & ? & ? & ? & ? & ?); congruence).
  rewrite !(CR pl_first_black (fun r => bytes_eqb (gr_player_b r) p1)) by (intros x y H; destruct (Q x y H) as (? & ? & ? & ? & ? & ? & ? & ? & ? & ? & ?); congruence).
  rewrite !(CR pl_first_black (fun r => bytes_eqb (gr_player_w r) p2)) by (intros x y H; destruct (Q x y H) as (? & ? & ? & ? & ? & ? & ? & ? & ? & ? & ?); congruence).
  rewrite !(CR (fun g => negb (pl_first_black g)) (fun r => bytes_eqb (gr_player_w r) p1)) by (intros x y H; destruct (Q x y H) as (? & ? & ? & ? & ? & ? & ? & ? & ? & ? & ?); congruence).
  rewrite !(CR (fun g => negb (pl_first_black g)) (fun r => bytes_eqb (gr_player_b r) p2)) by (intros x y H; destruct (Q x y H) as (? & ? & ? & ? & ? & ? & ? & ? & ? & ? & ?); congruence).
  do 10 (split; [auto|]). split.
  - destruct (Z.eqb_spec (how_many (fun g => negb (pl_first_black g)) gs) 0) as [X|X], (Z.eqb_spec (how_many pl_first_black gs) 0) as [Y|Y]; cbn [andb orb]; split; auto; try discriminate; intros [?|?]; congruence.
  - intros br. destruct (_ || _); [discriminate|]. intros E. injection E as <-. cbn [wins_b wins_w wins_1b wins_1w wins_2b wins_2w].
    rewrite (CR (won_as Black) (fun r => option_colour_eqb (gr_winner r) Black)) by (intros x y H; destruct (Q x y H) as (? & ? & ? & ? & ? & ? & ? & ? & ? & ? & ?); congruence).
    rewrite (CR (won_as White) (fun r => option_colour_eqb (gr_winner r) White)) by (intros x y H; destruct (Q x y H) as (? & ? & ? & ? & ? & ? & ? & ? & ? & ? & ?); congruence).
    do 2 (split; [reflexivity|]).
    assert (forall (f h : played -> bool) c q, (forall x y, records p1 p2 x y -> option_bytes_eqb (gr_winning_player y) q = f x) ->
      (forall x, f x && won_as c x = f x && h x) ->
      count (fun r => option_bytes_eqb (gr_winning_player r) q && option_colour_eqb (gr_winner r) c) rs = how_many (fun g => f g && h g) gs) as CC.
    { intros f h c q H1 H2. apply CR. intros x y H. rewrite (H1 x y H), <- H2. f_equal. destruct (Q x y H) as (? & ? & ? & ? & ? & ? & ? & ? & ? & ? & ?). destruct c; congruence. }
    rewrite (CC won_by_first pl_first_black Black p1); [|intros x y H; apply (Q x y H)|].
    2: { intros [[] [[]| |] ff]; reflexivity. }
    rewrite (CC won_by_first (fun g => negb (pl_first_black g)) White p1); [|intros x y H; apply (Q x y H)|].
    2: { intros [[] [[]| |] ff]; reflexivity. }
    rewrite (CC won_by_second (fun g => negb (pl_first_black g)) Black p2); [|intros x y H; apply (Q x y H)|].
    2: { intros [[] [[]| |] ff]; reflexivity. }
    rewrite (CC won_by_second pl_first_black White p2); [|intros x y H; apply (Q x y H)|].
    2: { intros [[] [[]| |] ff]; reflexivity. }
    auto.
Qed.

(** Adding up *)
Lemma how_many_cons {A} (P : A -> bool) x l : how_many P (x :: l) = (if P x then 1 else 0) + how_many P l.
Proof. unfold how_many. cbn [filter]. destruct (P x); cbn [List.length]; lia. Qed.
Lemma how_many_nil {A} (P : A -> bool) : how_many P [] = 0.
Proof. reflexivity. Qed.

Lemma C30_add_up_proof p1 p2 gs rs : p1 <> p2 -> Forall2 (records p1 p2) gs rs ->
  let s := matchup_stats rs p1 p2 in
  wins_1 s + wins_2 s + 2 * unknown s = 2 * total s /\
  played_1b s + played_1w s = total s /\ played_2b s + played_2w s = total s /\
  played_1b s = played_2w s /\ played_1w s = played_2b s /\
  0 <= wins_1 s <= 2 * total s /\ 0 <= wins_2 s <= 2 * total s /\ 0 <= unknown s <= total s /\
  0 <= 2 * forfeits_1 s <= wins_2 s /\ 0 <= 2 * forfeits_2 s <= wins_1 s /\
  forall br, by_colour s = Some br ->
    wins_b br + wins_w br = wins_1 s + wins_2 s /\
    wins_1b br + wins_1w br = wins_1 s + how_many is_jigo gs /\
    wins_2b br + wins_2w br = wins_2 s + how_many is_jigo gs.
Proof.
  intros D F. pose proof (C30_counts_proof p1 p2 gs rs D F) as H. cbv zeta in *. set (s := matchup_stats rs p1 p2) in *. destruct H as (A1 & A2 & A3 & A4 & A5 & A6 & A7 & A8 & A9 & A10 & _ & A11).
  rewrite A1, A2, A3, A4, A5, A6, A7, A8, A9, A10.
  assert (how_many won_by_first gs + how_many won_by_second gs + how_many is_jigo gs + how_many is_unknown gs = Z.of_nat (List.length gs) /\
    how_many pl_first_black gs + how_many (fun g => negb (pl_first_black g)) gs = Z.of_nat (List.length gs) /\
    how_many (fun g => won_by_second g && pl_forfeit g) gs <= how_many won_by_second gs /\
    how_many (fun g => won_by_first g && pl_forfeit g) gs <= how_many won_by_first gs /\
    how_many (won_as Black) gs + how_many (won_as White) gs = how_many won_by_first gs + how_many won_by_second gs /\
    how_many (fun g => won_by_first g && pl_first_black g) gs + how_many (fun g => won_by_first g && negb (pl_first_black g)) gs = how_many won_by_first gs /\
    how_many (fun g => won_by_second g && negb (pl_first_black g)) gs + how_many (fun g => won_by_second g && pl_first_black g) gs = how_many won_by_second gs) as (B1 & B2 & B3 & B4 & B5 & B6 & B7).
  { clear. induction gs as [|[fb o ff] gs IH]; [repeat split; reflexivity|]. rewrite !how_many_cons. cbn [List.length].
    revert IH. repeat (match goal with |- context [how_many ?P gs] => generalize (how_many P gs); intro end). intros IH.
    destruct fb, o as [[]| |], ff; cbn -[Z.of_nat Z.add Z.mul]; lia. }
  assert (forall (P : played -> bool) , 0 <= how_many P gs) as NN by (intros P; unfold how_many; lia).
  pose proof (NN won_by_first). pose proof (NN won_by_second). pose proof (NN is_jigo). pose proof (NN is_unknown).
  pose proof (NN (fun g => won_by_second g && pl_forfeit g)). pose proof (NN (fun g => won_by_first g && pl_forfeit g)).
  do 10 (split; [lia|]). intros br E. destruct (A11 br E) as (E1 & E2 & E3 & E4 & E5 & E6). rewrite E1, E2, E3, E4, E5, E6. lia.
Qed.

(** ** Results of games *)
Lemma C25_survives_proof r id b w gr : (exists win m d, result_from_score win m d = Ok r) \/ (exists g, result_from_unscored g = Ok r) ->
  make_game_result r id b w = Ok gr -> pickles gr.
Proof.
  intros H E. assert (r_jigo r = bytes_eqb (r_sgf r) (str "0")) as J.
  { destruct H as [(win & m & d & H)|(g & H)].
    - unfold result_from_score in H. destruct (match m with Some m => fst m <? 0 | None => false end); [discriminate|].
      destruct win as [[]|], m as [m|]; try destruct (fst m =? 0); try discriminate; injection H as <-; reflexivity.
    - unfold result_from_unscored in H.
      repeat match type of H with (if ?x then _ else _) = _ => destruct x; [try discriminate; try (injection H as <-; destruct (gm_winner g) as [[]|]; reflexivity)|try discriminate] end. }
  unfold make_game_result in E.
  destruct (if r_forfeit r then _ else _) as [det|] eqn:ED in E; cbn [bind] in E; [|discriminate]. injection E as <-.
  unfold pickles, game_result_getstate, game_result_setstate. cbn [gr_player_b gr_player_w gr_winner gr_sgf gr_detail gr_forfeit gr_id gr_cpu].
  rewrite <- J. reflexivity.
Qed.

Lemma result_between_proof r id b w gr : (exists win m d, result_from_score win m d = Ok r) \/ (exists g, result_from_unscored g = Ok r) ->
  make_game_result r id b w = Ok gr ->
  gr_id gr = id /\ result_between gr b w (match r_winner r with Some c => WonBy c | None => if r_jigo r then Jigo else Unknown end) /\
  gr_forfeit gr = r_forfeit r.
Proof.
  intros H E. assert (r_winner r <> None -> r_jigo r = false) as J.
  { destruct H as [(win & m & d & H)|(g & H)].
    - unfold result_from_score in H. destruct (match m with Some m => fst m <? 0 | None => false end); [discriminate|].
      destruct win as [[]|], m as [m|]; try destruct (fst m =? 0); try discriminate; injection H as <-; cbn; congruence.
    - unfold result_from_unscored in H.
      repeat match type of H with (if ?x then _ else _) = _ => destruct x; [try discriminate; try (injection H as <-; reflexivity)|try discriminate] end. }
  unfold make_game_result in E.
  destruct (if r_forfeit r then _ else _) as [det|] eqn:ED in E; cbn [bind] in E; [|discriminate]. injection E as <-.
  cbn [gr_id gr_forfeit]. split; [reflexivity|]. split; [|reflexivity]. unfold result_between.
  cbn [gr_player_b gr_player_w gr_winner gr_jigo gr_winning_player]. do 2 (split; [reflexivity|]).
  destruct (r_winner r) as [c|] eqn:W.
  - split; [reflexivity|]. split; [apply J; discriminate|]. destruct c; reflexivity.
  - destruct (r_jigo r); auto.
Qed.

(** ** Outstanding games *)
Lemma game_eqb_spec a b : reflect (a = b) (game_eqb a b).
Proof.
  destruct a as [i n], b as [j k]. unfold game_eqb. cbn [fst snd]. destruct (bytes_eqb_spec i j), (Nat.eqb_spec n k); constructor; congruence.
Qed.

Lemma filter_out g l1 l2 : NoDup (l1 ++ g :: l2) -> filter (fun x => negb (game_eqb g x)) (l1 ++ g :: l2) = l1 ++ l2.
Proof.
  intros ND. apply NoDup_remove_2 in ND. rewrite in_app_iff in ND. rewrite filter_app. cbn [filter].
  destruct (game_eqb_spec g g); [|congruence]. cbn [negb].
  assert (forall l, ~ In g l -> filter (fun x => negb (game_eqb g x)) l = l) as F.
  { induction l as [|y l IH]; intros N; [reflexivity|]. cbn [filter]. destruct (game_eqb_spec g y); [subst; exfalso; apply N; left; reflexivity|].
    cbn [negb]. rewrite IH; [reflexivity|]. intros X. apply N. right. exact X. }
  rewrite !F by tauto. reflexivity.
Qed.

Definition out_of (x : asys) (out : list game) : Prop := match fst x with Some a => a_out a = out | None => True end.

Lemma NoDup_app_r {A} (a b : list A) : NoDup (a ++ b) -> NoDup b.
Proof. induction a as [|x a IH]; cbn [app]; intros H; [exact H|]. inversion H; auto. Qed.

Lemma atrun_outstanding x es os y : atrun x es os y -> aok x -> forall out, out_of x out -> out_of y (outstanding out es os).
Proof.
  induction 1 as [|s e a s1 es os s2 S R IH]; intros OK out H; [exact H|]. cbn [outstanding]. apply IH; [eapply atstep_ok; eauto|].
  unfold out_of in *. destruct OK as [OK _].
  destruct S; cbn [fst a_out] in *; auto.
  - destruct H6 as [-> _]. congruence.
  - unfold games_ok in OK. apply NoDup_app_r in OK.
    match goal with R : rs_data r = _, A : a_out _ = _ ++ _ |- _ => rewrite R; rewrite <- H, A; rewrite A in OK end.
    rewrite filter_out by exact OK. reflexivity.
Qed.

Lemma C25_finished_proof es t sv os : Forall event_ok es -> trun (None, None) es = ((Some t, sv), os) ->
  snd (get_game t) = Ok None -> outstanding [] es os = [] ->
  forall m, In m (cf_matchups (t_config t)) ->
    exists l, m_games m = Some l /\ l <= Z.of_nat (List.length (get_matchup_results t (m_id m))).
Proof.
  intros OK E G OUT m I. destruct (sys_run es (None, None) (None, None) OK) as ([[a|] v] & R & B & V); [split; exact Logic.I| |]; rewrite E in *; cbn [fst snd] in *; [|contradiction].
  assert (aok (None, None)) as A0 by (split; exact Logic.I).
  pose proof (atrun_outstanding _ _ _ _ R A0 [] Logic.I) as O. unfold out_of in O. cbn [fst] in O. rewrite OUT in O.
  destruct (get_step t a sv v B (conj B V)) as (y & S & _).
  unfold trun_step in S. destruct (get_game t) as [t' rr]. cbn [snd] in G. subst rr. cbn [snd] in S.
  inversion S as [| ? ? N| | | | | | | | | |]; subst. destruct B as (C & _ & (_ & _ & L) & _). specialize (N m). rewrite <- C in N. specialize (N I).
  unfold open_, load, in_hand in N. rewrite O in N. cbn [of_matchup filter map] in N. rewrite app_nil_r, <- results_of_length in N.
  destruct (m_games m) as [l|]; [|exfalso; apply N; exact Logic.I]. exists l. split; [reflexivity|].
  unfold get_matchup_results. fold (lookup (t_results t) (m_id m)). rewrite L. lia.
Qed.

Lemma C25_no_game_twice_proof es : Forall event_ok es ->
  exists y, atrun (None, None) es (snd (trun (None, None) es)) y /\
    match fst (fst (trun (None, None) es)), fst y with
    | Some t, Some a => (forall id, get_matchup_results t id = results_of id (a_done a)) /\
        NoDup (map fst (a_done a) ++ a_out a) /\ a_out a = outstanding [] es (snd (trun (None, None) es))
    | None, None => True
    | _, _ => False
    end.
Proof.
  intros OK. destruct (C25_refines_proof es OK) as (y & R & M). exists y. split; [exact R|].
  assert (aok (None, None)) as A0 by (split; exact Logic.I).
  pose proof (atrun_outstanding _ _ _ _ R A0 [] Logic.I) as O. unfold out_of in O. destruct (atrun_ok _ _ _ _ R A0) as [A _].
  destruct (fst (fst (trun (None, None) es))) as [t|], (fst y) as [a|]; auto.
Qed.

(** ** A retry is allowed, once, only for a matchup that works *)
Lemma C25_never_internal_error_proof es t sv os e : Forall event_ok es -> trun (None, None) es = ((Some t, sv), os) ->
  snd (get_game t) <> Err e.
Proof.
  intros OK E G. destruct (sys_run es (None, None) (None, None) OK) as ([[a|] v] & R & B & V); [split; exact Logic.I| |]; rewrite E in *; cbn [fst snd] in *; [|contradiction].
  destruct (get_step t a sv v B (conj B V)) as (y & S & _).
  unfold trun_step in S. destruct (get_game t) as [t' rr]. cbn [snd] in G. subst rr. cbn [snd] in S. inversion S.
Qed.
