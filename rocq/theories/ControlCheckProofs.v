(** What follows for competitions from control files (C53, C54), and the startup checks (C56). *)
From Coq Require Import QArith Permutation.
From Verif Require Import Base Bytes PyStr Dict SgfPropsSpec CommonModel GameplayModel TournModel TournSpec TournProofs TournConfProofs
  SettingsModel SettingsSpec SettingsProofs SettingsLoadProofs SettingsConfigProofs SettingsMoreProofs ControlModel ControlSpec ControlProofs ControlPlayerProofs ControlGameProofs ControlMatchupProofs ControlAllProofs.
From Verif Require GtpModel.
Open Scope Z_scope.

Definition own_codes (ps : dict player) : Prop := forall c p, In (c, p) ps -> p_code p = c.
Lemma described_codes en config ps : players_described en config ps -> own_codes ps /\ NoDup (dkeys ps).
Proof.
  intros (v & items & _ & _ & INC & _ & B). split; [|exact (increasing_nodup _ INC)].
  intros c p I. destruct (B c p I) as (k & args & kwargs & _ & _ & (d & _ & E & _)). exact E.
Qed.

Lemma hash_differs (p : bytes) : p ++ str "#2" <> p.
Proof. intros E. apply (f_equal (@List.length ascii)) in E. rewrite app_length in E. cbn in E. lia. Qed.

Lemma second_player_ok ps p1 p2 code ps1 : second_player ps p1 p2 code ps1 -> In p1 (dkeys ps) -> In p2 (dkeys ps) -> NoDup (dkeys ps) -> own_codes ps ->
  NoDup (dkeys ps1) /\ own_codes ps1 /\ (exists extra, ps1 = ps ++ extra) /\ In p1 (dkeys ps1) /\ In code (dkeys ps1) /\ p1 <> code.
Proof.
  intros [(NE & -> & ->)|(-> & -> & [[I ->]|(NI & p & q & D & S & C & ->)])] I1 I2 ND OC.
  - split; [exact ND|]. split; [exact OC|]. split; [exists []; rewrite app_nil_r; reflexivity|]. auto.
  - split; [exact ND|]. split; [exact OC|]. split; [exists []; rewrite app_nil_r; reflexivity|]. split; [exact I1|]. split; [exact I|].
    intros E. exact (hash_differs p2 (eq_sym E)).
  - unfold dkeys in *. rewrite map_app. cbn [map fst]. split.
    { eapply Permutation_NoDup; [apply Permutation_cons_append|]. constructor; assumption. }
    split; [intros c x I; apply in_app_or in I; destruct I as [I|[I|[]]]; [exact (OC _ _ I)|injection I as <- <-; exact C]|].
    split; [eauto|]. split; [apply in_or_app; left; exact I1|]. split; [apply in_or_app; right; left; reflexivity|].
    intros E. exact (hash_differs p2 (eq_sym E)).
Qed.

Section Komi.
Variable to_num : pyfloat -> num.

Lemma entered_ok event_code config i ps l ms ps' : entered to_num event_code config i ps l ms ps' -> NoDup (dkeys ps) -> own_codes ps ->
  NoDup (dkeys ps') /\ own_codes ps' /\ (exists extra, ps' = ps ++ extra) /\ List.length ms = List.length l /\
  forall m name event, In (m, name, event) ms -> In (m_player_1 m) (dkeys ps') /\ In (m_player_2 m) (dkeys ps') /\ m_player_1 m <> m_player_2 m /\ playable (m_settings m).
Proof.
  induction 1 as [i ps|i ps v rest c name m ms p2 ps1 ps2 MW I1 I2 SP PL E1 E2 E3 E4 E5 E6 EN IH]; intros ND OC.
  - split; [exact ND|]. split; [exact OC|]. split; [exists []; rewrite app_nil_r; reflexivity|]. split; [reflexivity|]. intros m name ev [].
  - destruct (second_player_ok _ _ _ _ _ SP I1 I2 ND OC) as (ND1 & OC1 & (x1 & EX1) & J1 & J2 & NE). destruct (IH ND1 OC1) as (ND2 & OC2 & (x2 & EX2) & LN & H).
    split; [exact ND2|]. split; [exact OC2|]. split; [exists (x1 ++ x2); rewrite app_assoc; congruence|]. split; [cbn; congruence|].
    intros m' n' e' [E|I]; [|exact (H _ _ _ I)]. injection E as <- <- <-. rewrite E2, E3, E6.
    assert (G : forall x, In x (dkeys ps1) -> In x (dkeys ps2)) by (intros x I; subst ps2; unfold dkeys; rewrite map_app; apply in_or_app; left; exact I).
    split; [exact (G _ J1)|]. split; [exact (G _ J2)|]. split; [exact NE|exact PL].
Qed.

Lemma playoff_players en event_code config tc : playoff_described to_num en event_code config tc -> NoDup (dkeys (tc_players tc)) /\ own_codes (tc_players tc).
Proof.
  intros (_ & _ & _ & _ & _ & ps & v & l & PD & _ & _ & _ & EN). destruct (described_codes _ _ _ PD) as [OC ND]. destruct (entered_ok _ _ _ _ _ _ _ EN ND OC) as (A & B & _). auto.
Qed.
Theorem playoff_usable en event_code config tc : playoff_described to_num en event_code config tc ->
  config_ok (config_of tc) /\ matchups_of tc <> [] /\
  forall m, In m (matchups_of tc) -> m_player_1 m <> m_player_2 m /\ playable (m_settings m).
Proof.
  intros (_ & _ & _ & _ & NDI & ps & v & l & PD & _ & _ & NE & EN). destruct (described_codes _ _ _ PD) as [OC ND].
  destruct (entered_ok _ _ _ _ _ _ _ EN ND OC) as (A & B & _ & LN & H). unfold config_ok, config_of, matchups_of. cbn [cf_matchups cf_players].
  split; [split; [rewrite map_map; exact NDI|]|split].
  - intros m I. apply in_map_iff in I. destruct I as ([[m' n] e] & <- & I). destruct (H _ _ _ I) as (H1 & H2 & _). auto.
  - intros X. apply map_eq_nil in X. rewrite X in LN. destruct l; [congruence|discriminate].
  - intros m I. apply in_map_iff in I. destruct I as ([[m' n] e] & <- & I). destruct (H _ _ _ I) as (_ & _ & H3 & H4). auto.
Qed.

(** ** All-play-alls are as C27 has them *)
Lemma specs_numbered players l : forall i seen, (i + List.length l <= 702)%nat -> NoDup l -> (forall p, In p l -> In p players /\ ~ In p seen) ->
  competitor_specs players i l seen = Ok (map (fun p => (letters (fst p), snd p)) (numbered (Z.of_nat i) l)).
Proof.
  induction l as [|p l IH]; intros i seen LE ND H; [reflexivity|]. cbn [competitor_specs numbered map fst snd]. cbn [List.length] in LE. inversion ND as [|? ? N ND']; subst.
  destruct (H p (or_introl eq_refl)) as [H1 H2]. destruct (bmem_spec p players); [|contradiction]. cbn [negb].
  rewrite (proj2 (short_code_ok i (letters (Z.of_nat i)))) by (split; [lia|reflexivity]). destruct (bmem_spec p seen); [contradiction|].
  rewrite IH; [|lia|exact ND'|intros q I; split; [apply H; right; exact I|intros [<-|J]; [contradiction|apply (H q (or_intror I)); exact J]]].
  cbn [bind]. do 3 f_equal. rewrite Nat2Z.inj_succ. reflexivity.
Qed.
Lemma pairs_up_pairs event_code rounds s l : map (fun m => fst (fst m)) (map (meeting event_code rounds s) (pairs l)) = pairs_up rounds s (map (fun p => (letters (fst p), snd p)) l).
Proof.
  induction l as [|a l IH]; [reflexivity|]. cbn [pairs map pairs_up]. rewrite !map_app. f_equal; [|exact IH]. rewrite !map_map. apply map_ext. intros b. reflexivity.
Qed.
Theorem allplayall_usable en event_code config tc : allplayall_described to_num en event_code config tc ->
  exists competitors s rounds, tc_competitors tc = Some competitors /\ allplayall_config (dkeys (tc_players tc)) competitors rounds s = Ok (config_of tc).
Proof.
  intros (D & PD & s & rounds & v & l & codes & AG & GV & EL & F & TC & NC & LE & ND & IN & MS). exists codes, s, rounds. split; [exact TC|].
  unfold allplayall_config. rewrite (specs_numbered _ codes 0 []); [|lia|exact ND|intros p I; split; [exact (IN p I)|intros []]].
  destruct AG as (_ & _ & HA & FR & _). destruct codes as [|c0 codes]; [congruence|].
  change (match c0 :: codes with [] => ?a | _ => ?b end) with b.
  replace (mkSet (s_board_size s) (s_komi s) None false (s_move_limit s) (s_internal s) (s_compensation s)) with s by (destruct s; cbn in *; subst; reflexivity).
  cbn [bind]. rewrite all_matchups_eq by exact HA. cbn [bind]. unfold config_of. rewrite MS, TC. do 2 f_equal.
  - symmetry. apply pairs_up_pairs.
  - f_equal. rewrite map_map. cbn [snd]. exact (eq_trans (map_ext _ _ (fun _ => eq_refl) _) (numbered_snd (c0 :: codes) 0)).
Qed.
Theorem allplayall_playable en event_code config tc : allplayall_described to_num en event_code config tc ->
  exists s, s_handicap s = None /\ playable s /\ forall m, In m (matchups_of tc) -> m_settings m = s.
Proof.
  intros (D & PD & s & rounds & v & l & codes & AG & GV & EL & F & TC & NC & LE & ND & IN & MS). exists s. destruct AG as (H1 & _ & HA & FR & H5 & _). split; [exact HA|]. split.
  - split; [|split; [|left; exact HA]].
    + destruct H1 as [(w & _ & _ & B)|[_ X]]; [exact B|discriminate].
    + destruct H5 as [(w & _ & _ & B)|[_ X]]; [exact B|injection X as X; lia].
  - intros m I. unfold matchups_of in I. rewrite MS, map_map in I. apply in_map_iff in I. destruct I as ([a b] & <- & _). reflexivity.
Qed.

(** ** Startup checks *)
Lemma use_get m d code : dget code (use_matchup m d) =
  match m_games m with Some 0 => dget code d | _ => if bytes_eqb code (m_player_2 m) || bytes_eqb code (m_player_1 m) then Some m else dget code d end.
Proof.
  unfold use_matchup. assert (X : dget code (dset (m_player_2 m) m (dset (m_player_1 m) m d)) = if bytes_eqb code (m_player_2 m) || bytes_eqb code (m_player_1 m) then Some m else dget code d).
  { rewrite !dget_dset. destruct (bytes_eqb code (m_player_2 m)); [reflexivity|]. reflexivity. }
  destruct (m_games m) as [[| |]|]; [reflexivity|exact X|exact X|exact X].
Qed.
Lemma plays_dec m code : {plays m code} + {~ plays m code}.
Proof.
  unfold plays. destruct (m_games m) as [z|].
  - destruct (Z.eq_dec z 0) as [->|N]; [right; intros [H _]; congruence|].
    destruct (bytes_eqb_spec (m_player_1 m) code) as [E|N1]; [left; split; [congruence|auto]|].
    destruct (bytes_eqb_spec (m_player_2 m) code) as [E|N2]; [left; split; [congruence|auto]|]. right. intros [_ [E|E]]; contradiction.
  - destruct (bytes_eqb_spec (m_player_1 m) code) as [E|N1]; [left; split; [congruence|auto]|].
    destruct (bytes_eqb_spec (m_player_2 m) code) as [E|N2]; [left; split; [congruence|auto]|]. right. intros [_ [E|E]]; contradiction.
Qed.
Lemma use_plays m d code : dget code (use_matchup m d) = if plays_dec m code then Some m else dget code d.
Proof.
  rewrite use_get. destruct (plays_dec m code) as [[N P]|N].
  - assert (O : bytes_eqb code (m_player_2 m) || bytes_eqb code (m_player_1 m) = true).
    { destruct P as [<-|<-]; rewrite bytes_eqb_refl; [apply Bool.orb_true_r|reflexivity]. }
    rewrite O. destruct (m_games m) as [[| |]|]; congruence.
  - destruct (m_games m) as [z|] eqn:G.
    + destruct (Z.eq_dec z 0) as [->|NZ]; [reflexivity|].
      assert (O : bytes_eqb code (m_player_2 m) || bytes_eqb code (m_player_1 m) = false).
      { apply Bool.orb_false_iff. split; [destruct (bytes_eqb_spec code (m_player_2 m)) as [E|]|destruct (bytes_eqb_spec code (m_player_1 m)) as [E|]]; try reflexivity;
          exfalso; apply N; (split; [congruence|auto]). }
      rewrite O. destruct z; [congruence|reflexivity|reflexivity].
    + assert (O : bytes_eqb code (m_player_2 m) || bytes_eqb code (m_player_1 m) = false).
      { apply Bool.orb_false_iff. split; [destruct (bytes_eqb_spec code (m_player_2 m)) as [E|]|destruct (bytes_eqb_spec code (m_player_1 m)) as [E|]]; try reflexivity;
          exfalso; apply N; (split; [congruence|auto]). }
      rewrite O. reflexivity.
Qed.
Lemma used_get ms code m : dget code (used_players ms) = Some m <-> first_plays ms code m.
Proof.
  unfold used_players. induction ms as [|m0 ms IH]; cbn [fold_right].
  - split; [discriminate|]. intros (b & a & E & _). destruct b; discriminate.
  - rewrite use_plays. destruct (plays_dec m0 code) as [P|N].
    + split.
      * intros E. injection E as <-. exists [], ms. split; [reflexivity|]. split; [exact P|]. intros m' [].
      * intros (b & a & E & Q & B). destruct b as [|x b]; cbn [app] in E; injection E as -> E; [reflexivity|]. exfalso. apply (B x (or_introl eq_refl)). exact P.
    + rewrite IH. split.
      * intros (b & a & -> & Q & B). exists (m0 :: b), a. split; [reflexivity|]. split; [exact Q|]. intros m' [<-|I]; [exact N|exact (B _ I)].
      * intros (b & a & E & Q & B). destruct b as [|x b]; cbn [app] in E; injection E as -> E; [contradiction|]. exists b, a. split; [exact E|]. split; [exact Q|]. intros m' I. apply B. right. exact I.
Qed.
Lemma used_nodup ms : NoDup (map fst (used_players ms)).
Proof.
  unfold used_players. induction ms as [|m ms IH]; cbn [fold_right]; [constructor|]. unfold use_matchup.
  destruct (m_games m) as [[| |]|]; try exact IH; apply dset_NoDup, dset_NoDup; exact IH.
Qed.
Lemma checks_of_spec players l : own_codes players -> (forall code m, In (code, m) l -> In code (dkeys players)) ->
  exists r, checks_of players l = Good r /\ map (fun c => p_code (fst (fst c))) r = map fst l /\
    forall p size komi, In (p, size, komi) r <-> exists code m, In (code, m) l /\ dget code players = Some p /\ size = s_board_size (m_settings m) /\ komi = s_komi (m_settings m).
Proof.
  intros OC. induction l as [|[code m] l IH]; intros H; cbn [checks_of].
  - exists []. split; [reflexivity|]. split; [reflexivity|]. intros p size komi. split; [intros []|intros (c & m & [] & _)].
  - assert (IH' : forall c m, In (c, m) l -> In c (dkeys players)) by (intros c x I; apply (H c x); right; exact I). destruct (IH IH') as (r & C & M & S).
    destruct (dget code players) as [p|] eqn:D; [|exfalso; apply dget_None in D; apply D; apply (H code m); left; reflexivity].
    rewrite C. cbn [sbind]. eexists. split; [reflexivity|]. cbn [map fst]. split; [f_equal; [apply OC, dget_In; exact D|exact M]|].
    intros q size komi. cbn [In]. rewrite S. split.
    + intros [E|(c & x & I & R)]; [injection E as <- <- <-; exists code, m; auto|exists c, x; auto].
    + intros (c & x & [E|I] & D' & -> & ->); [injection E as <- <-; left; congruence|right; exists c, x; auto].
Qed.
Lemma sort_items_in {A} (l : list (bytes * A)) x : In x (sort_items l) <-> In x l.
Proof. split; intros I; (eapply Permutation_in; [|exact I]); [|apply Permutation_sym]; apply sort_items_perm. Qed.

Theorem playoff_checks_spec en event_code config tc : playoff_described to_num en event_code config tc ->
  exists l, playoff_checks tc = Good l /\ playoff_checks_are tc l.
Proof.
  intros PD. destruct (playoff_players _ _ _ _ PD) as [ND OC]. destruct (playoff_usable _ _ _ _ PD) as ([_ CO] & _). unfold playoff_checks. fold (matchups_of tc).
  destruct (checks_of_spec (tc_players tc) (sort_items (used_players (matchups_of tc))) OC) as (r & C & M & S).
  { intros code m I. apply (proj1 (sort_items_in _ _)) in I. apply (In_dget code m) in I; [|apply used_nodup]. apply used_get in I. destruct I as (b & a & E & [_ P] & _).
    destruct (CO m) as [I1 I2]; [unfold config_of; cbn [cf_matchups]; fold (matchups_of tc); rewrite E; apply in_or_app; right; left; reflexivity|]. destruct P as [<-|<-]; assumption. }
  exists r. split; [exact C|]. split; [rewrite M; apply sort_items_increasing, used_nodup|].
  intros p size komi. rewrite S. split.
  - intros (code & m & I & D & E1 & E2). exists code, m. split; [exact D|]. split; [|auto]. apply used_get. apply In_dget; [apply used_nodup|]. apply (proj1 (sort_items_in _ _)). exact I.
  - intros (code & m & D & F & E1 & E2). exists code, m. split; [|auto]. apply sort_items_in. apply dget_In. apply used_get. exact F.
Qed.
Theorem allplayall_checks_spec en event_code config tc : allplayall_described to_num en event_code config tc ->
  (matchups_of tc <> [] -> exists l, allplayall_checks tc = Good l /\ allplayall_checks_are tc l) /\
  (matchups_of tc = [] -> allplayall_checks tc = Bad (SOther IndexError)).
Proof.
  intros AD. destruct (allplayall_playable _ _ _ _ AD) as (s & _ & _ & SE). destruct AD as (D & PD & s0 & rounds & v & l & codes & AG & GV & EL & F & TC & NC & LE & ND & IN & MS).
  destruct (described_codes _ _ _ PD) as [OC NDK]. unfold allplayall_checks. split.
  - intros NE. destruct (tc_matchups tc) as [|[[m n] e] ms] eqn:TM; [unfold matchups_of in NE; rewrite TM in NE; exfalso; apply NE; reflexivity|]. rewrite TC.
    destruct (checks_of_spec (tc_players tc) (map (fun c => (c, m)) codes) OC) as (r & C & M & S).
    { intros code x I. apply in_map_iff in I. destruct I as (c & E & I). injection E as <- <-. exact (IN _ I). }
    exists r. split; [exact C|]. exists codes. split; [exact TC|]. split; [rewrite M, map_map; apply map_id|].
    intros p size komi I. apply S in I. destruct I as (code & x & I & DG & -> & ->). apply in_map_iff in I. destruct I as (c & E & I). injection E as <- <-.
    rewrite (OC c p (dget_In _ _ _ DG)). split; [exact DG|]. intros m' I'. rewrite (SE m' I'). rewrite (SE m); [auto|]. unfold matchups_of. rewrite TM. left. reflexivity.
  - intros E. unfold matchups_of in E. apply map_eq_nil in E. rewrite E. reflexivity.
Qed.
End Komi.
