(** Reading matchups (C53). *)
From Coq Require Import QArith.
From Verif Require Import Base Bytes PyStr Dict SgfPropsSpec CommonModel GameplayModel TournModel TournSpec TournProofs TournConfProofs
  SettingsModel SettingsSpec SettingsProofs SettingsLoadProofs SettingsConfigProofs SettingsMoreProofs ControlModel ControlSpec ControlProofs ControlPlayerProofs ControlGameProofs.
From Verif Require GtpModel.
Open Scope Z_scope.

Lemma matchup_settings_keys : never_keys matchup_settings.
Proof.
  unfold never_keys, matchup_settings, game_settings. cbn [app]. repeat constructor; cbn [st_interpreter]; try apply enum_never_key; try apply allow_none_never_key, int_never_key.
  - intros v. unfold interpret_board_size. destruct (int_of v) as [z|]; [destruct (z <? 2); [|destruct (25 <? z)]|]; discriminate.
  - apply float_never_key.
  - apply positive_never_key.
  - apply bool_never_key.
Qed.
Lemma nodup_names (l : list bytes) : (fix f l := match l with [] => true | x :: r => negb (bmem x r) && f r end) l = true -> NoDup l.
Proof.
  induction l as [|x l IH]; intros H; [constructor|]. apply Bool.andb_true_iff in H. destruct H as [A B]. constructor; [|exact (IH B)].
  destruct (bmem_spec x l) as [I|N]; [discriminate|exact N].
Qed.
Lemma matchup_settings_nodup : NoDup (map st_name matchup_settings).
Proof. apply nodup_names. vm_compute. reflexivity. Qed.
Lemma game_in_matchup : incl game_settings matchup_settings.
Proof. unfold matchup_settings. apply incl_appl, incl_refl. Qed.

Lemma check_handicap_ok h free size : 2 <= size <= 25 -> check_handicap h free size = Good tt <-> valid_handicap h free size.
Proof.
  intros SZ. unfold check_handicap, valid_handicap. rewrite <- (validate_ok h free size SZ). destruct (validate_handicap h free size) as [[]|e]; split; congruence.
Qed.
Lemma described_size to_num ds s : game_described to_num ds s -> 2 <= s_board_size s <= 25 /\ 0 < s_move_limit s.
Proof.
  intros (H1 & _ & _ & _ & H5 & _). split.
  - clear H5. induction ds as [|d ds IH]; [discriminate|]. destruct H1 as [(v & _ & _ & B)|[_ H]]; [exact B|exact (IH H)].
  - clear H1. induction ds as [|d ds IH]; [cbn in H5; injection H5 as <-; lia|]. destruct H5 as [(v & _ & _ & B)|[_ H]]; [exact B|exact (IH H)].
Qed.
(** What a value stands for is unique. *)
Lemma utf8_is_str v y : interpret_as_utf8 v = Good y -> exists s, y = VStr s.
Proof. destruct v; cbn; try discriminate; [intros E; injection E as <-; eauto|destruct (SgfPropsModel.utf8_decode s); [intros E; injection E as <-; eauto|discriminate]|intros E; injection E as <-; eauto]. Qed.
Lemma reads_description : reads interpret_as_utf8_stripped as_text description_value.
Proof.
  intros v a. unfold description_value. split.
  - intros (y & I & C). pose proof I as J. unfold interpret_as_utf8_stripped in J. apply bind_good in J. destruct J as (z & Z1 & Z2).
    apply utf8_is_str in Z1. destruct Z1 as (s & ->). injection Z2 as <-. cbn in C. injection C as <-. exact I.
  - intros I. exists (VStr a). auto.
Qed.
Lemma stripped_not_none v : interpret_as_utf8_stripped v <> Good VNone.
Proof.
  intros J. unfold interpret_as_utf8_stripped in J. apply bind_good in J. destruct J as (z & Z1 & Z2). apply utf8_is_str in Z1. destruct Z1 as (s & ->). discriminate.
Qed.

Lemma matchup_accepts config ad : (exists d, load_settings matchup_settings config ad true = Good d) <-> matchup_acceptable config.
Proof.
  rewrite (load_partial_ok matchup_settings config ad matchup_settings_keys).
  assert (B : forall {A} s name (conv : pyval -> sres A) R, st_name s = str name -> reads (st_interpreter s) conv R ->
     (forall v y, st_interpreter s v = Good y -> exists a, conv y = Good a) ->
     (dget (st_name s) config = None \/ exists y, present config s y) <-> acceptable config name R).
  { intros A s name conv R N RD TOT. unfold acceptable, present. rewrite N. split; (intros [X|X]; [left; exact X|right]).
    - destruct X as (y & v & G & E). destruct (TOT _ _ E) as (a & C). exists v, a. split; [exact G|]. apply RD. eauto.
    - destruct X as (v & a & G & E). apply RD in E. destruct E as (y & E & _). eauto. }
  assert (INT : forall v y, interpret_int v = Good y -> exists a, as_int y = Good a).
  { intros v y E. apply int_ok in E. destruct E as (-> & z & Z1). exists z. apply as_int_spec. exact Z1. }
  assert (NONE : forall v y, allow_none interpret_int v = Good y -> exists a, as_option as_int y = Good a).
  { intros v y E. apply none_ok in E. destruct E as [[-> ->]|[N E]]; [exists None; reflexivity|]. destruct (INT _ _ E) as (a & C). apply int_ok in E. destruct E as (-> & _).
    exists (Some a). destruct v; try congruence; unfold as_option; rewrite C; reflexivity. }
  assert (ENUM : forall values v y, interpret_enum values v = Good y -> exists s, as_text y = Good s).
  { intros values v y E. apply enum_ok in E. destruct E as (-> & s & T & _). exists s. apply as_text_spec. exact T. }
  pose proof (B Z (mkSetting (str "board_size") interpret_board_size None) "board_size"%string as_int size_value eq_refl reads_size
    ltac:(intros v y E; apply board_size_ok in E; destruct E as (-> & z & Z1 & _); exists z; apply as_int_spec; exact Z1)) as B1.
  pose proof (B pyfloat (mkSetting (str "komi") interpret_float None) "komi"%string as_float float_value eq_refl reads_float
    ltac:(intros v y E; cbn [st_interpreter] in E; unfold interpret_float in E; destruct v; try discriminate;
      repeat match type of E with context [float_of_int ?x] => destruct (float_of_int x); try discriminate end; injection E as <-; eexists; reflexivity)) as B2.
  pose proof (B _ (mkSetting (str "handicap") (allow_none interpret_int) (Some VNone)) "handicap"%string _ _ eq_refl (reads_none _ _ _ int_not_none reads_int) NONE) as B3.
  pose proof (B bool (mkSetting (str "handicap_style") (interpret_enum [str "fixed"; str "free"]) (Some (VStr (str "fixed")))) "handicap_style"%string _ _ eq_refl reads_style
    ltac:(intros v y E; destruct (ENUM _ _ _ E) as (s & C); unfold is_free; rewrite C; cbn [sbind]; eauto)) as B4.
  pose proof (B Z (mkSetting (str "move_limit") interpret_positive_int (Some (VInt 1000))) "move_limit"%string as_int positive_value eq_refl reads_positive
    ltac:(intros v y E; apply positive_ok in E; destruct E as (-> & z & Z1 & _); exists z; apply as_int_spec; exact Z1)) as B5.
  pose proof (B bool (mkSetting (str "scorer") (interpret_enum [str "internal"; str "players"]) (Some (VStr (str "players")))) "scorer"%string _ _ eq_refl reads_scorer
    ltac:(intros v y E; destruct (ENUM _ _ _ E) as (s & C); unfold scorer_of; rewrite C; cbn [sbind]; eauto)) as B6.
  pose proof (B compensation (mkSetting (str "internal_scorer_handicap_compensation") (interpret_enum [str "no"; str "full"; str "short"]) (Some (VStr (str "full"))))
    "internal_scorer_handicap_compensation"%string _ _ eq_refl reads_compensation
    ltac:(intros v y E; destruct (ENUM _ _ _ E) as (s & C); unfold as_compensation; rewrite C; cbn [sbind]; eauto)) as B7.
  pose proof (B bool (mkSetting (str "alternating") interpret_bool (Some (VBool false))) "alternating"%string as_bool bool_value eq_refl reads_bool
    ltac:(intros v y E; apply bool_ok in E; destruct E as (-> & b & ->); exists b; reflexivity)) as B8.
  pose proof (B _ (mkSetting (str "number_of_games") (allow_none interpret_int) (Some VNone)) "number_of_games"%string _ _ eq_refl (reads_none _ _ _ int_not_none reads_int) NONE) as B9.
  unfold matchup_acceptable, game_acceptable. rewrite <- B1, <- B2, <- B3, <- B4, <- B5, <- B6, <- B7, <- B8, <- B9. clear.
  unfold matchup_settings, game_settings. cbn [app]. split.
  - intros H. split; [split; [|split; [|split; [|split; [|split; [|split]]]]]|split]; apply H; cbn [In]; tauto.
  - intros ((H1 & H2 & H3 & H4 & H5 & H6 & H7) & H8 & H9) s [<-|[<-|[<-|[<-|[<-|[<-|[<-|[<-|[<-|[]]]]]]]]]]; assumption.
Qed.

Section Komi.
Variable to_num : pyfloat -> num.

(** *** One matchup *)
Definition matchup_values (ds : list (dict pyval)) (alternating : bool) (games : option Z) (s : settings) : Prop :=
  value_in ds "alternating" bool_value (Some false) alternating /\
  value_in ds "number_of_games" (none_or int_value) (Some None) games /\ game_described to_num ds s.
Lemma matchup_values_get ds d alternating games s : all_found ds matchup_settings d ->
  matchup_values ds alternating games s <->
  settings_of to_num d = Good s /\ (try v <- get "alternating" d; as_bool v) = Good alternating /\
  (try v <- get "number_of_games" d; as_option as_int v) = Good games.
Proof.
  intros F. unfold matchup_values. rewrite (settings_of_spec to_num ds matchup_settings d s F matchup_settings_nodup game_in_matchup).
  assert (I1 : In (mkSetting (str "alternating") interpret_bool (Some (VBool false))) matchup_settings) by (unfold matchup_settings; apply in_or_app; right; cbn; tauto).
  assert (I2 : In (mkSetting (str "number_of_games") (allow_none interpret_int) (Some VNone)) matchup_settings) by (unfold matchup_settings; apply in_or_app; right; cbn; tauto).
  rewrite (get_value ds matchup_settings d _ "alternating" as_bool bool_value (Some false) alternating F matchup_settings_nodup I1 eq_refl reads_bool (ex_intro _ false (conj eq_refl eq_refl))).
  rewrite (get_value ds matchup_settings d _ "number_of_games" (as_option as_int) (none_or int_value) (Some None) games F matchup_settings_nodup I2 eq_refl
    (reads_none _ _ _ int_not_none reads_int) (ex_intro _ None (conj eq_refl eq_refl))). tauto.
Qed.
Lemma matchup_values_found ds alternating games s : matchup_values ds alternating games s -> exists d, all_found ds matchup_settings d.
Proof.
  intros (H8 & H9 & H1 & (f & H2 & _) & H3 & H4 & H5 & H6 & H7). apply all_found_total. intros x I. unfold matchup_settings, game_settings in I. cbn [app] in I.
  destruct I as [<-|[<-|[<-|[<-|[<-|[<-|[<-|[<-|[<-|[]]]]]]]]]].
  - apply (found_bridge ds (mkSetting (str "board_size") interpret_board_size None) "board_size" as_int size_value None _ eq_refl reads_size eq_refl) in H1. destruct H1 as (y & Y & _). eauto.
  - apply (found_bridge ds (mkSetting (str "komi") interpret_float None) "komi" as_float float_value None _ eq_refl reads_float eq_refl) in H2. destruct H2 as (y & Y & _). eauto.
  - apply (found_bridge ds (mkSetting (str "handicap") (allow_none interpret_int) (Some VNone)) "handicap" (as_option as_int) (none_or int_value) (Some None) _ eq_refl
      (reads_none _ _ _ int_not_none reads_int) (ex_intro _ None (conj eq_refl eq_refl))) in H3. destruct H3 as (y & Y & _). eauto.
  - apply (found_bridge ds (mkSetting (str "handicap_style") (interpret_enum [str "fixed"; str "free"]) (Some (VStr (str "fixed")))) "handicap_style" is_free (choice_value style_table) (Some false) _ eq_refl
      reads_style (ex_intro _ false (conj eq_refl eq_refl))) in H4. destruct H4 as (y & Y & _). eauto.
  - apply (found_bridge ds (mkSetting (str "move_limit") interpret_positive_int (Some (VInt 1000))) "move_limit" as_int positive_value (Some 1000) _ eq_refl
      reads_positive (ex_intro _ 1000 (conj eq_refl eq_refl))) in H5. destruct H5 as (y & Y & _). eauto.
  - apply (found_bridge ds (mkSetting (str "scorer") (interpret_enum [str "internal"; str "players"]) (Some (VStr (str "players")))) "scorer" scorer_of (choice_value scorer_table) (Some false) _ eq_refl
      reads_scorer (ex_intro _ false (conj eq_refl eq_refl))) in H6. destruct H6 as (y & Y & _). eauto.
  - apply (found_bridge ds (mkSetting (str "internal_scorer_handicap_compensation") (interpret_enum [str "no"; str "full"; str "short"]) (Some (VStr (str "full")))) "internal_scorer_handicap_compensation"
      as_compensation (choice_value compensation_table) (Some CompFull) _ eq_refl reads_compensation (ex_intro _ CompFull (conj eq_refl eq_refl))) in H7. destruct H7 as (y & Y & _). eauto.
  - apply (found_bridge ds (mkSetting (str "alternating") interpret_bool (Some (VBool false))) "alternating" as_bool bool_value (Some false) _ eq_refl
      reads_bool (ex_intro _ false (conj eq_refl eq_refl))) in H8. destruct H8 as (y & Y & _). eauto.
  - apply (found_bridge ds (mkSetting (str "number_of_games") (allow_none interpret_int) (Some VNone)) "number_of_games" (as_option as_int) (none_or int_value) (Some None) _ eq_refl
      (reads_none _ _ _ int_not_none reads_int) (ex_intro _ None (conj eq_refl eq_refl))) in H9. destruct H9 as (y & Y & _). eauto.
Qed.
Definition with_names (event_code : bytes) (m : matchup) (name : option bytes) : named_matchup :=
  (m, fst (names_of event_code m name), snd (names_of event_code m name)).
Lemma control_matchup_fill event_code id p1 p2 parameters name nm ds :
  (forall d, fill matchup_settings parameters = Good d <-> all_found ds matchup_settings d) ->
  control_matchup to_num event_code id p1 p2 parameters name = Good nm <->
  exists alternating games s, matchup_values ds alternating games s /\ playable s /\ nm = with_names event_code (mkM id p1 p2 alternating games s) name.
Proof.
  intros FF. unfold control_matchup. split.
  - intros H. apply (proj1 (control_good _ _)) in H. apply bind_good in H. destruct H as (d & F & H). apply FF in F.
    apply bind_good in H. destruct H as (s & S & H). apply bind_good in H. destruct H as (al & A & H). apply bind_good in H. destruct H as (ga & G & H).
    apply bind_good in H. destruct H as (u & CH & H). destruct u. exists al, ga, s.
    assert (MV : matchup_values ds al ga s) by (apply (matchup_values_get ds d); auto). split; [exact MV|].
    destruct (described_size to_num ds s (proj2 (proj2 MV))) as [SZ ML]. apply check_handicap_ok in CH; [|exact SZ].
    split; [split; [exact SZ|split; [exact ML|exact CH]]|]. injection H as <-. unfold with_names, names_of. destruct name; reflexivity.
  - intros (al & ga & s & MV & (SZ & ML & CH) & ->). apply control_good. destruct (matchup_values_found _ _ _ _ MV) as (d & F). apply bind_good. exists d. split; [apply FF; exact F|].
    apply (matchup_values_get ds d) in MV; [|exact F]. destruct MV as (S & A & G). rewrite S. cbn [sbind]. rewrite A. cbn [sbind]. rewrite G. cbn [sbind].
    rewrite (proj2 (check_handicap_ok _ _ _ SZ) CH). cbn [sbind]. unfold with_names, names_of. destruct name; reflexivity.
Qed.

Lemma find_player_spec {A} (players : dict A) v s : find_player players v = Good (Some s) <-> text v s /\ In s (dkeys players).
Proof.
  unfold find_player. destruct (hashable v) eqn:H.
  - destruct (key_text v) as [t|] eqn:K.
    + pose proof (proj1 (key_text_spec v t) K) as T. pose proof (dmem_spec t players) as M. destruct (dmem t players).
      * split; [intros E; injection E as <-; split; [exact T|apply M; reflexivity]|]. intros [T' _]. rewrite (text_fun _ _ _ T T'). reflexivity.
      * split; [discriminate|]. intros [T' I]. rewrite (text_fun _ _ _ T' T) in I. apply M in I. discriminate.
    + split; [discriminate|]. intros [T _]. apply key_text_spec in T. congruence.
  - split; [discriminate|]. intros [T _]. inversion T; subst; discriminate.
Qed.
Lemma copy_same p code : same_but_code p (copy_player p code) /\ p_code (copy_player p code) = code.
Proof. unfold same_but_code, copy_player. cbn. repeat split. Qed.
Lemma same_is_copy p q : same_but_code p q -> q = copy_player p (p_code q).
Proof. intros (A & B & C & D & E & F & G & H & I). destruct p, q. cbn in *. unfold copy_player. cbn. congruence. Qed.

Definition new_players (players : dict player) (p1 p2 : bytes) : dict player :=
  let same := bytes_eqb p1 p2 in
  let p2' := if same then p2 ++ str "#2" else p2 in
  if same && negb (dmem p2' players) then
    match dget p1 players with Some p => dset p2' (copy_player p p2') players | None => players end
  else players.
Lemma second_player_spec players p1 p2 code players' : In p1 (dkeys players) ->
  second_player players p1 p2 code players' <->
  code = (if bytes_eqb p1 p2 then p2 ++ str "#2" else p2) /\ players' = new_players players p1 p2.
Proof.
  intros I. unfold second_player, new_players. destruct (bytes_eqb_spec p1 p2) as [<-|N].
  - pose proof (dmem_spec (p1 ++ str "#2") players) as M. fold (dkeys players) in M. destruct (dmem (p1 ++ str "#2") players); cbn [andb negb].
    + split.
      * intros [[N _]|(_ & -> & [[_ ->]|[NI _]])]; [congruence|auto|exfalso; apply NI, M; reflexivity].
      * intros [-> ->]. right. split; [reflexivity|]. split; [reflexivity|]. left. split; [apply M; reflexivity|reflexivity].
    + assert (NI : ~ In (p1 ++ str "#2") (dkeys players)) by (intros J; apply M in J; discriminate).
      assert (D : exists p, dget p1 players = Some p).
      { destruct (dget p1 players) as [p|] eqn:D; [eauto|]. apply dget_None in D. contradiction. }
      destruct D as (p & D). rewrite D. rewrite (dset_new _ _ _ NI). split.
      * intros [[N _]|(_ & -> & [[J _]|(_ & p' & q & D' & S & C & ->)])]; [congruence|contradiction|]. split; [reflexivity|].
        assert (p' = p) by congruence. subst p'. rewrite (same_is_copy _ _ S), C. reflexivity.
      * intros [-> ->]. right. split; [reflexivity|]. split; [reflexivity|]. right. split; [exact NI|]. exists p, (copy_player p (p1 ++ str "#2")).
        destruct (copy_same p (p1 ++ str "#2")) as [S C]. auto.
  - cbn [andb]. split; [intros [(_ & -> & ->)|(E & _)]; [auto|congruence]|intros [-> ->]; left; auto].
Qed.

Lemma value_in_ext2 {A} d d' ds name (R : pyval -> A -> Prop) default x : (forall n, dget n d = dget n d') ->
  value_in (d :: ds) name R default x <-> value_in (d' :: ds) name R default x.
Proof.
  intros E. cbn [value_in]. rewrite (E (str name)). split; intros [(v & G & H)|H]; auto; left; exists v; (split; [apply (given_ext d d'); auto|exact H]).
Qed.
Lemma matchup_values_ext d d' ds al ga s : (forall n, dget n d = dget n d') -> matchup_values (d :: ds) al ga s -> matchup_values (d' :: ds) al ga s.
Proof.
  intros E (H8 & H9 & H1 & (f & H2 & K) & H3 & H4 & H5 & H6 & H7). unfold matchup_values, game_described.
  split; [apply (value_in_ext2 d d'); assumption|]. split; [apply (value_in_ext2 d d'); assumption|].
  split; [apply (value_in_ext2 d d'); assumption|]. split; [exists f; split; [apply (value_in_ext2 d d'); assumption|exact K]|].
  split; [apply (value_in_ext2 d d'); assumption|]. split; [apply (value_in_ext2 d d'); assumption|]. split; [apply (value_in_ext2 d d'); assumption|].
  split; apply (value_in_ext2 d d'); assumption.
Qed.

Definition written_id (d : dict pyval) (o : option bytes) : Prop :=
  (dget (str "id") d = None /\ o = None) \/ (exists w s, dget (str "id") d = Some w /\ identifier_value w s /\ o = Some s).
Definition written_name (d : dict pyval) (name : option bytes) : Prop :=
  ((dget (str "name") d = None \/ dget (str "name") d = Some VNone) /\ name = None) \/
  (exists w s, dget (str "name") d = Some w /\ w <> VNone /\ name_value w s /\ name = Some s).
Lemma matchup_id_spec i d id : matchup_id i d = Good id <-> exists o, written_id d o /\ id = match o with Some s => s | None => str_int (Z.of_nat i) end.
Proof.
  unfold matchup_id, written_id. destruct (dget (str "id") d) as [w|]; split.
  - intros H. apply prefix_good in H. apply bind_good in H. destruct H as (r & I & C). exists (Some id). split; [right|reflexivity].
    exists w, id. split; [reflexivity|]. split; [apply reads_identifier; eauto|reflexivity].
  - intros (o & [[X _]|(w' & s & E & T & ->)] & ->); [discriminate|]. injection E as <-. apply prefix_good. apply reads_identifier in T. destruct T as (y & I & C).
    rewrite I. exact C.
  - intros E. injection E as <-. exists None. auto.
  - intros (o & [[_ ->]|(w' & s & E & _)] & ->); [reflexivity|discriminate].
Qed.
Definition name_of (d : dict pyval) : sres (option bytes) :=
  match dget (str "name") d with
  | None | Some VNone => Good None
  | Some v => prefix_value (str "'name': ") (try r <- interpret_as_utf8 v; try s <- as_text r; Good (Some s))
  end.
Lemma name_of_spec d name : name_of d = Good name <-> written_name d name.
Proof.
  unfold name_of, written_name. destruct (dget (str "name") d) as [w|].
  2:{ split; [intros E; injection E as <-; left; auto|]. intros [[_ ->]|(w & s & E & _)]; [reflexivity|discriminate]. }
  assert (W : w <> VNone -> prefix_value (str "'name': ") (try r <- interpret_as_utf8 w; try s <- as_text r; Good (Some s)) = Good name <->
    exists s, name_value w s /\ name = Some s).
  { intros N. rewrite prefix_good, bind_good. unfold name_value. split.
    - intros (r & I & H). pose proof I as J. apply utf8_is_str in J. destruct J as (s & ->). cbn in H. injection H as <-. eauto.
    - intros (s & I & ->). exists (VStr s). auto. }
  destruct (match w with VNone => true | _ => false end) eqn:WN.
  - destruct w; try discriminate. split; [intros E; injection E as <-; left; auto|]. intros [[_ ->]|(w & s & E & N & _)]; [reflexivity|]. injection E as <-. congruence.
  - assert (N : w <> VNone) by (intros ->; discriminate). etransitivity; [|etransitivity; [exact (W N)|]].
    + destruct w; try reflexivity. congruence.
    + split.
      * intros (s & V & ->). right. exists w, s. auto.
      * intros [[[X|X] _]|(w' & s & E & _ & V & ->)]; [discriminate|injection X as X; contradiction|]. injection E as <-. eauto.
Qed.

Lemma matchup_positional : NoDup (qc_positional matchup_class).
Proof. apply nodup_names. vm_compute. reflexivity. Qed.

Lemma written_parts config args kwargs c name d : arguments_are matchup_class args kwargs d -> matchup_written to_num config (VConfig (str "Matchup") args kwargs) c name ->
  written_id d (mc_id c) /\ (exists w, dget (str "player_1") d = Some w /\ text w (mc_player_1 c)) /\ (exists w, dget (str "player_2") d = Some w /\ text w (mc_player_2 c)) /\
  matchup_values [d; config] (mc_alternating c) (mc_games c) (mc_settings c) /\ written_name d name.
Proof.
  intros AR (a' & k' & d' & E & AR' & H1 & H2 & H3 & H4 & H5 & H6 & H7). assert (a' = args) by congruence. assert (k' = kwargs) by congruence. subst a' k'.
  pose proof (arguments_fun _ _ _ _ _ AR' AR) as EX. unfold written_id, written_name. rewrite <- !EX. split; [exact H1|]. split; [exact H2|]. split; [exact H3|].
  split; [|exact H7]. apply (matchup_values_ext d' d); [exact EX|]. split; [exact H4|]. split; assumption.
Qed.

Lemma new_players_alike players p1 p2 :
  (if bytes_eqb p1 p2 && negb (dmem (if bytes_eqb p1 p2 then p2 ++ str "#2" else p2) players) then
     match dget p1 players with Some p => dset (if bytes_eqb p1 p2 then p2 ++ str "#2" else p2) (copy_player p (if bytes_eqb p1 p2 then p2 ++ str "#2" else p2)) players | None => players end
   else players) = new_players players p1 p2.
Proof. reflexivity. Qed.

Lemma matchup_spec en event_code i players args kwargs config defaults players' nm :
  NoDup (map fst kwargs) -> load_settings matchup_settings config true true = Good defaults ->
  matchup_from_control to_num en event_code i players args kwargs defaults = Good (players', nm) <->
  exists c name p2 m, matchup_written to_num config (VConfig (str "Matchup") args kwargs) c name /\
    In (mc_player_1 c) (dkeys players) /\ In (mc_player_2 c) (dkeys players) /\
    second_player players (mc_player_1 c) (mc_player_2 c) p2 players' /\ playable (mc_settings c) /\
    m_id m = match mc_id c with Some id => id | None => str_int (Z.of_nat i) end /\
    m_player_1 m = mc_player_1 c /\ m_player_2 m = p2 /\ m_alternating m = mc_alternating c /\ m_games m = mc_games c /\
    m_settings m = mc_settings c /\ nm = with_names event_code m name.
Proof.
  intros NK LC. unfold matchup_from_control, matchup_error.
  assert (FF : forall arguments interpreted, load_settings matchup_settings arguments false true = Good interpreted -> forall d,
    fill matchup_settings (update defaults interpreted) = Good d <-> all_found [arguments; config] matchup_settings d).
  { intros arguments interpreted LA d. exact (fill_found _ _ _ _ _ d matchup_settings_keys matchup_settings_nodup LC LA). }
  split.
  - intros H. apply bind_good in H. destruct H as (d & R & H). apply any_good in R. apply bind_good in H. destruct H as (id & ID & H). apply any_good in ID. apply any_good in H.
    pose proof (arguments_resolve _ _ _ matchup_positional NK d R) as AR. apply matchup_id_spec in ID. destruct ID as (o & WI & ->).
    unfold matchup_rest in H. destruct (dget (str "player_1") d) as [v1|] eqn:D1; [|discriminate]. destruct (dget (str "player_2") d) as [v2|] eqn:D2; [|discriminate].
    apply bind_good in H. destruct H as (f1 & F1 & H). destruct f1 as [p1|]; [|apply bind_good in H; destruct H as (t & _ & X); discriminate].
    apply bind_good in H. destruct H as (f2 & F2 & H). destruct f2 as [p2|]; [|apply bind_good in H; destruct H as (t & _ & X); discriminate].
    apply find_player_spec in F1, F2. destruct F1 as [T1 I1], F2 as [T2 I2].
    apply bind_good in H. destruct H as (interpreted & LA & H). apply bind_good in H. destruct H as (name & NM & H).
    apply bind_good in H. destruct H as (nm' & CM & H). injection H as <- <-. rewrite new_players_alike.
    apply (control_matchup_fill _ _ _ _ _ _ _ [d; config] (FF d interpreted LA)) in CM. destruct CM as (al & ga & s & MV & PL & ->).
    pose proof (proj1 (name_of_spec d name) NM) as WN.
    exists (mkMC o p1 p2 al ga s), name, (if bytes_eqb p1 p2 then p2 ++ str "#2" else p2).
    exists (mkM (match o with Some s => s | None => str_int (Z.of_nat i) end) p1 (if bytes_eqb p1 p2 then p2 ++ str "#2" else p2) al ga s).
    cbn [mc_id mc_player_1 mc_player_2 mc_alternating mc_games mc_settings m_id m_player_1 m_player_2 m_alternating m_games m_settings].
    split; [|split; [exact I1|split; [exact I2|split; [apply second_player_spec; [exact I1|auto]|split; [exact PL|]]]]; auto 10].
    exists args, kwargs, d. split; [reflexivity|]. split; [exact AR|]. cbn [mc_id mc_player_1 mc_player_2 mc_alternating mc_games mc_settings].
    destruct MV as (M1 & M2 & M3). split; [exact WI|]. split; [eauto|]. split; [eauto|]. split; [exact M1|]. split; [exact M2|]. split; [exact M3|exact WN].
  - intros (c & name & p2 & m & MW & I1 & I2 & SP & PL & E1 & E2 & E3 & E4 & E5 & E6 & ->).
    pose proof MW as (a' & k' & d0 & E & AR0 & _). assert (a' = args) by congruence. assert (k' = kwargs) by congruence. subst a' k'.
    destruct (resolve_arguments_ok _ _ _ _ matchup_positional NK AR0) as (d & R & AR & _). destruct (written_parts config args kwargs c name d AR MW) as (WI & (w1 & D1 & T1) & (w2 & D2 & T2) & MV & WN).
    apply second_player_spec in SP; [|exact I1]. destruct SP as [EP ->].
    rewrite R. cbn [any_error sbind]. rewrite (proj2 (matchup_id_spec i d (m_id m)) (ex_intro _ (mc_id c) (conj WI E1))). cbn [any_error sbind]. apply any_good.
    unfold matchup_rest. rewrite D1, D2. rewrite (proj2 (find_player_spec players w1 _) (conj T1 I1)). cbn [sbind]. rewrite (proj2 (find_player_spec players w2 _) (conj T2 I2)). cbn [sbind].
    assert (LA : exists interpreted, load_settings matchup_settings d false true = Good interpreted).
    { apply load_partial_ok; [exact matchup_settings_keys|]. intros s I. destruct (matchup_values_found _ _ _ _ MV) as (dd & F).
      destruct (all_found_get _ _ _ s F matchup_settings_nodup I) as (y & _ & [P|[N _]]); [right; eauto|left; exact N]. }
    destruct LA as (interpreted & LA). rewrite LA. cbn [sbind]. rewrite new_players_alike.
    change (match dget (str "name") d with None | Some VNone => Good None | Some v => prefix_value (str "'name': ") (try r <- interpret_as_utf8 v; try s <- as_text r; Good (Some s)) end) with (name_of d).
    rewrite (proj2 (name_of_spec d name) WN). cbn [sbind]. apply bind_good. exists (with_names event_code m name). split; [|reflexivity].
    apply (control_matchup_fill _ _ _ _ _ _ _ [d; config] (FF d interpreted LA)). exists (mc_alternating c), (mc_games c), (mc_settings c). split; [exact MV|]. split; [exact PL|].
    f_equal. destruct m as [x1 x2 x3 x4 x5 x6]. cbn [m_id m_player_1 m_player_2 m_alternating m_games m_settings] in *. rewrite E2, E3, E4, E5, E6, EP. reflexivity.
Qed.

(** *** All the matchups *)
Definition ids (l : list named_matchup) : list bytes := map (fun m => m_id (fst (fst m))) l.
Lemma nodup_app_one {A} (l : list A) x r : NoDup ((l ++ [x]) ++ r) <-> NoDup (l ++ x :: r).
Proof. rewrite <- app_assoc. reflexivity. Qed.
Lemma matchups_spec en event_code config defaults l : load_settings matchup_settings config true true = Good defaults ->
  Forall (fun v => exists args kwargs, v = VConfig (str "Matchup") args kwargs /\ NoDup (map fst kwargs)) l ->
  forall i players done players' all, NoDup (ids done) ->
  matchups_from_control to_num en event_code i players l defaults done = Good (players', all) <->
  exists new, all = done ++ new /\ NoDup (ids all) /\ entered to_num event_code config i players l new players'.
Proof.
  intros LC. induction l as [|v l IH]; intros FA i players done players' all ND; cbn [matchups_from_control].
  - split.
    + intros E. injection E as <- <-. exists []. rewrite app_nil_r. split; [reflexivity|]. split; [exact ND|constructor].
    + intros (new & -> & _ & EN). inversion EN; subst. rewrite app_nil_r. reflexivity.
  - inversion FA as [|? ? (args & kwargs & -> & NK) FA']; subst. rewrite bind_good. split.
    + intros ([ps1 nm] & M & H). apply (matchup_spec en event_code i players args kwargs config defaults ps1 nm NK LC) in M.
      destruct M as (c & name & p2 & m & MW & I1 & I2 & SP & PL & E1 & E2 & E3 & E4 & E5 & E6 & ->).
      destruct (bmem_spec (m_id (fst (fst (with_names event_code m name)))) (map (fun m => m_id (fst (fst m))) done)) as [|NI]; [discriminate|].
      apply (IH FA') in H.
      * destruct H as (new & -> & ND' & EN). exists (with_names event_code m name :: new). rewrite <- app_assoc in *. split; [reflexivity|]. split; [exact ND'|].
        eapply ent_cons; eassumption.
      * unfold ids. rewrite map_app. cbn [map]. eapply Permutation.Permutation_NoDup; [apply Permutation.Permutation_cons_append|]. constructor; assumption.
    + intros (new & -> & ND' & EN). inversion EN as [|? ? ? ? c name m ms p2 ps1 ? MW I1 I2 SP PL E1 E2 E3 E4 E5 E6 EN']; subst.
      exists (ps1, with_names event_code m name). split.
      { apply (matchup_spec en event_code i players args kwargs config defaults ps1 _ NK LC). exists c, name, (m_player_2 m), m. auto 20. }
      unfold ids in ND'. rewrite map_app in ND'. cbn [map] in ND'.
      destruct (bmem_spec (m_id (fst (fst (with_names event_code m name)))) (map (fun m => m_id (fst (fst m))) done)) as [I|NI].
      { exfalso. apply NoDup_remove_2 in ND'. apply ND'. apply in_or_app. left. exact I. }
      apply (IH FA').
      * unfold ids. rewrite map_app. cbn [map]. eapply Permutation.Permutation_NoDup; [apply Permutation.Permutation_cons_append|]. constructor; assumption.
      * exists ms. rewrite <- app_assoc. split; [reflexivity|]. split; [|exact EN']. unfold ids. rewrite map_app. exact ND'.
Qed.

Lemma quiet_matchup v y : interpret_quiet_config (str "Matchup") (str "Matchup") false v = Good y <-> y = v /\ exists args kwargs, v = VConfig (str "Matchup") args kwargs.
Proof.
  unfold interpret_quiet_config. destruct v; try (split; [discriminate|intros (_ & a & k & E); discriminate]).
  destruct (bytes_eqb_spec cls (str "Matchup")) as [->|N].
  - split; [intros E; injection E as <-; eauto|intros [-> _]; reflexivity].
  - split; [discriminate|]. intros (_ & a & k & E). assert (X : cls = str "Matchup") by congruence. contradiction.
Qed.
Lemma playoff_special_keys : never_keys playoff_special.
Proof. constructor; [|constructor]. cbn [st_interpreter]. apply sequence_of_never_key, quiet_config_never_key. Qed.
Lemma playoff_special_spec config l : (exists d, load_settings playoff_special config true false = Good d /\ get "matchups" d = Good (VList l)) <->
  exists v, given config (str "matchups") v /\ elements v l /\ Forall (fun v => exists args kwargs, v = VConfig (str "Matchup") args kwargs) l.
Proof.
  assert (SQ : forall v, interpret_sequence_of_quiet_configs (str "Matchup") (str "Matchup") false v = Good (VList l) <->
    elements v l /\ Forall (fun v => exists args kwargs, v = VConfig (str "Matchup") args kwargs) l).
  { intros v. unfold interpret_sequence_of_quiet_configs. rewrite sequence_of_ok. split.
    - intros (l0 & xs & EL & F & X). injection X as <-.
      assert (l0 = l /\ Forall (fun v => exists args kwargs, v = VConfig (str "Matchup") args kwargs) l) as [-> FA]; [|auto].
      clear EL. induction F as [|a b l0 l E F [-> FA]]; [split; constructor|]. apply quiet_matchup in E. destruct E as (-> & Q). split; [reflexivity|constructor; assumption].
    - intros [EL FA]. exists l, l. split; [exact EL|]. split; [|reflexivity]. clear EL. induction FA as [|a l Q FA IH]; constructor; [|exact IH]. apply quiet_matchup. auto. }
  split.
  - intros (d & L & G). apply load_good in L; [|exact playoff_special_keys]. apply loaded_cons in L. destruct L as (x & d' & -> & L & F). cbn [st_name] in G. rewrite get_here in G. injection G as ->.
    destruct L as [(v & GV & I)|[_ X]]; [|discriminate]. exists v. split; [exact GV|]. apply SQ. exact I.
  - intros (v & GV & H). apply SQ in H. exists [(str "matchups", VList l)]. split; [|apply get_here]. apply load_good; [exact playoff_special_keys|]. constructor; [|constructor]. split; [reflexivity|].
    left. exists v. auto.
Qed.
Lemma playoff_special_list config d y : load_settings playoff_special config true false = Good d -> get "matchups" d = Good y -> exists l, y = VList l.
Proof.
  intros L G. apply load_good in L; [|exact playoff_special_keys]. apply loaded_cons in L. destruct L as (x & d' & -> & L & F). cbn [st_name] in G. rewrite get_here in G. injection G as ->.
  destruct L as [(v & GV & I)|[_ X]]; [|discriminate]. cbn [st_interpreter] in I. unfold interpret_sequence_of_quiet_configs in I. apply sequence_of_ok in I. destruct I as (l & xs & _ & _ & ->). eauto.
Qed.

Lemma base_keys : never_keys base_settings.
Proof. constructor; [|constructor]. cbn [st_interpreter]. apply allow_none_never_key, utf8_stripped_never_key. Qed.
Lemma description_spec ds settings d o : all_found ds settings d -> NoDup (map st_name settings) ->
  In (mkSetting (str "description") (allow_none interpret_as_utf8_stripped) (Some VNone)) settings ->
  description_of d = Good o <-> value_in ds "description" (none_or description_value) (Some None) o.
Proof.
  intros F ND I. unfold description_of.
  exact (get_value ds settings d _ "description" (as_option as_text) (none_or description_value) (Some None) o F ND I eq_refl
    (reads_none _ _ _ stripped_not_none reads_description) (ex_intro _ None (conj eq_refl eq_refl))).
Qed.

(** The check of the default handicap. *)
Definition default_check (defaults : dict pyval) : sres unit :=
  if dmem (str "board_size") defaults then
    try size <- (try v <- get "board_size" defaults; as_int v);
    try handicap <- (try v <- get "handicap" defaults; as_option as_int v);
    try free <- (try v <- get "handicap_style" defaults; is_free v);
    match check_handicap handicap free size with
    | Bad (SControl t) => Bad (SControl (str "default " ++ t))
    | r => r
    end
  else Good tt.
Lemma default_get {A} config defaults s name (conv : pyval -> sres A) R default a : load_settings matchup_settings config true true = Good defaults ->
  In s matchup_settings -> st_name s = str name -> reads (st_interpreter s) conv R -> converts conv (st_default s) default ->
  (try v <- get name defaults; conv v) = Good a <-> value_in [config] name R default a.
Proof.
  intros L I N RD CV. rewrite <- (found_bridge [config] s name conv R default a N RD CV). unfold get. rewrite <- N.
  pose proof (load_partial_get _ _ _ _ s matchup_settings_keys matchup_settings_nodup L I) as G. cbn [found].
  destruct (dget (st_name s) defaults) as [y|]; cbn [sbind].
  - split.
    + intros C. exists y. split; [|exact C]. destruct (proj1 (G y) eq_refl) as [P|(X & _ & D)]; auto.
    + intros (y' & H & C). assert (Some y = Some y') by (apply G; destruct H as [P|[X D]]; auto). congruence.
  - split; [discriminate|]. intros (y' & H & C). assert (None = Some y') by (apply G; destruct H as [P|[X D]]; auto). discriminate.
Qed.
Lemma default_check_spec config defaults : load_settings matchup_settings config true true = Good defaults ->
  default_check defaults = Good tt <-> default_handicap_ok config.
Proof.
  intros L.
  assert (I1 : In (mkSetting (str "board_size") interpret_board_size None) matchup_settings) by (cbn; tauto).
  assert (I3 : In (mkSetting (str "handicap") (allow_none interpret_int) (Some VNone)) matchup_settings) by (cbn; tauto).
  assert (I4 : In (mkSetting (str "handicap_style") (interpret_enum [str "fixed"; str "free"]) (Some (VStr (str "fixed")))) matchup_settings) by (cbn; tauto).
  pose proof (fun a => default_get config defaults _ "board_size" as_int size_value None a L I1 eq_refl reads_size eq_refl) as G1.
  pose proof (fun a => default_get config defaults _ "handicap" (as_option as_int) (none_or int_value) (Some None) a L I3 eq_refl
    (reads_none _ _ _ int_not_none reads_int) (ex_intro _ None (conj eq_refl eq_refl))) as G3.
  pose proof (fun a => default_get config defaults _ "handicap_style" is_free (choice_value style_table) (Some false) a L I4 eq_refl reads_style (ex_intro _ false (conj eq_refl eq_refl))) as G4.
  pose proof (load_partial_get _ _ _ _ _ matchup_settings_keys matchup_settings_nodup L I1) as B. cbn [st_name] in B.
  pose proof (proj1 (load_partial_ok matchup_settings config true matchup_settings_keys) (ex_intro _ _ L)) as OK.
  unfold default_check, default_handicap_ok, dmem. destruct (dget (str "board_size") defaults) as [y|] eqn:D.
  - destruct (proj1 (B y) eq_refl) as [(w & GW & IW)|(_ & _ & X)]; [|discriminate]. cbn [st_name st_interpreter] in GW, IW.
    assert (SV : exists size, size_value w size). { apply board_size_ok in IW. destruct IW as (_ & z & Z1 & Z2). exists z. split; assumption. }
    destruct SV as (size & SV). assert (GS : (try v <- get "board_size" defaults; as_int v) = Good size) by (apply G1; left; eauto). rewrite GS. cbn [sbind].
    assert (HV : exists h, (try v <- get "handicap" defaults; as_option as_int v) = Good h).
    { destruct (OK _ I3) as [N|(z & (v & GV & IV))].
      - exists None. apply G3. right. split; [exact N|reflexivity].
      - cbn [st_interpreter st_name] in IV, GV. apply none_ok in IV. destruct IV as [[-> ->]|[N IV]].
        + exists None. apply G3. left. exists VNone. split; [exact GV|left; auto].
        + apply int_ok in IV. destruct IV as (-> & h & HZ). exists (Some h). apply G3. left. exists v. split; [exact GV|]. right. split; [exact N|]. eauto. }
    assert (FV : exists free, (try v <- get "handicap_style" defaults; is_free v) = Good free).
    { destruct (OK _ I4) as [N|(z & (v & GV & IV))].
      - exists false. apply G4. right. split; [exact N|reflexivity].
      - cbn [st_interpreter st_name] in IV, GV. assert (T : exists s, as_text z = Good s) by (apply enum_ok in IV; destruct IV as (-> & s & T & _); exists s; apply as_text_spec; exact T).
        destruct T as (s & T). exists (bytes_eqb s (str "free")). apply G4. left. exists v. split; [exact GV|]. apply reads_style. exists z. split; [exact IV|]. unfold is_free. rewrite T. reflexivity. }
    destruct HV as (h & HV), FV as (free & FV). rewrite HV, FV. cbn [sbind]. destruct SV as [SV1 SZ].
    transitivity (check_handicap h free size = Good tt).
    { destruct (check_handicap h free size) as [[]|[]]; split; congruence. }
    rewrite (check_handicap_ok h free size SZ). split.
    + intros V w' size' h' free' GW' [SV' SZ'] H' F'. pose proof (given_fun _ _ _ _ GW GW'). subst w'. pose proof (int_value_fun _ _ _ SV1 SV'). subst size'.
      apply G3 in H'. apply G4 in F'. assert (h' = h) by congruence. assert (free' = free) by congruence. subst. exact V.
    + intros H. apply (H w size h free GW (conj SV1 SZ)); [apply G3; exact HV|apply G4; exact FV].
  - split; [|reflexivity]. intros _ w size h free GW SV. exfalso.
    assert (None = Some w); [|discriminate]. apply B. left. exists w. split; [exact GW|]. cbn [st_interpreter]. apply board_size_ok. split; [reflexivity|]. destruct SV. eauto.
Qed.

Theorem playoff_spec en event_code config tc : proper_players config -> proper_matchups config ->
  playoff_from_control to_num en event_code config = Good tc <-> playoff_described to_num en event_code config tc.
Proof.
  intros PP PM. unfold playoff_from_control, playoff_described, description_is.
  assert (DE : forall d o, load_settings base_settings config true false = Good d ->
     description_of d = Good o <-> value_in [config] "description" (none_or description_value) (Some None) o).
  { intros d o L. apply load_found in L; [|exact base_keys]. apply (description_spec [config] base_settings d o L); [cbn; repeat constructor; intros []|left; reflexivity]. }
  split.
  - intros H. apply bind_good in H. destruct H as ([at_ ps] & C & H). apply (competition_spec en base_settings config at_ ps PP) in C. destruct C as [LB PD].
    apply bind_good in H. destruct H as (defaults & LC & H). apply (proj1 (control_good _ _)) in LC. apply bind_good in H. destruct H as (u & DC & H). destruct u.
    apply bind_good in H. destruct H as (sp & LS & H). apply (proj1 (control_good _ _)) in LS. apply bind_good in H. destruct H as (y & G & H).
    destruct (playoff_special_list _ _ _ LS G) as (l & ->). destruct (proj1 (playoff_special_spec config l) (ex_intro _ sp (conj LS G))) as (v & GV & EL & FA). cbn [list_of] in H.
    assert (NE : l <> []) by (intros ->; discriminate).
    assert (H' : (try r <- matchups_from_control to_num en event_code 0 ps l defaults []; try description <- description_of at_; Good (mkTC description (fst r) (snd r) None)) = Good tc).
    { destruct l; [congruence|exact H]. }
    clear H. apply bind_good in H'. destruct H' as ([ps' ms] & M & H). apply bind_good in H. destruct H as (de & D & H). injection H as <-. cbn [tc_description tc_players tc_matchups tc_competitors fst snd].
    assert (FA' : Forall (fun v => exists args kwargs, v = VConfig (str "Matchup") args kwargs /\ NoDup (map fst kwargs)) l).
    { pose proof (PM v l GV EL) as PC. rewrite Forall_forall in *. intros x I. destruct (FA x I) as (a & k & ->). exists a, k. split; [reflexivity|]. apply (PC _ I _ _ _ eq_refl). }
    apply (matchups_spec en event_code config defaults l LC FA') in M; [|constructor]. destruct M as (new & E & ND & EN). cbn [app] in E. subst new.
    split; [apply (DE at_ de LB); exact D|]. split; [reflexivity|]. split; [apply (matchup_accepts config true); eauto|]. split; [apply (default_check_spec config defaults LC); exact DC|].
    split; [exact ND|]. exists ps, v, l. auto.
  - intros (D & NC & MA & DH & ND & ps & v & l & PD & GV & EL & NE & EN).
    apply (matchup_accepts config true) in MA. destruct MA as (defaults & LC).
    assert (LB : exists at_, load_settings base_settings config true false = Good at_).
    { assert (X : exists d, all_found [config] base_settings d).
      { apply all_found_total. intros s [<-|[]]. apply (found_bridge [config] (mkSetting (str "description") (allow_none interpret_as_utf8_stripped) (Some VNone)) "description" (as_option as_text) (none_or description_value) (Some None) _ eq_refl
          (reads_none _ _ _ stripped_not_none reads_description) (ex_intro _ None (conj eq_refl eq_refl))) in D. destruct D as (y & Y & _). eauto. }
      destruct X as (d & F). exists d. apply load_found; [exact base_keys|exact F]. }
    destruct LB as (at_ & LB). rewrite (proj2 (competition_spec en base_settings config at_ ps PP) (conj LB PD)). cbn [sbind]. rewrite LC. cbn [control_error sbind].
    change (if dmem (str "board_size") defaults then _ else Good tt) with (default_check defaults). rewrite (proj2 (default_check_spec config defaults LC) DH). cbn [sbind].
    assert (FA : Forall (fun v => exists args kwargs, v = VConfig (str "Matchup") args kwargs /\ NoDup (map fst kwargs)) l).
    { pose proof (PM v l GV EL) as PC. clear -EN PC. induction EN as [|i ps v rest c name m ms p2 ps1 ps2 MW I1 I2 SP PL E1 E2 E3 E4 E5 E6 EN IH]; [constructor|].
      inversion PC as [|? ? P PC']; subst. constructor; [|exact (IH PC')]. destruct MW as (a & k & _ & -> & _). exists a, k. split; [reflexivity|]. apply (P _ _ _ eq_refl). }
    assert (LS : exists sp, load_settings playoff_special config true false = Good sp /\ get "matchups" sp = Good (VList l)).
    { apply playoff_special_spec. exists v. split; [exact GV|]. split; [exact EL|]. eapply Forall_impl; [|exact FA]. intros x (a & k & -> & _). eauto. }
    destruct LS as (sp & LS & G). rewrite LS. cbn [control_error sbind]. rewrite G. cbn [sbind list_of].
    assert (M : matchups_from_control to_num en event_code 0 ps l defaults [] = Good (tc_players tc, tc_matchups tc)).
    { apply (matchups_spec en event_code config defaults l LC FA); [constructor|]. exists (tc_matchups tc). auto. }
    destruct l as [|v0 l0]; [congruence|]. rewrite M. cbn [sbind]. rewrite (proj2 (DE at_ _ LB) D). cbn [sbind fst snd]. rewrite <- NC. destruct tc. reflexivity.
Qed.
End Komi.
