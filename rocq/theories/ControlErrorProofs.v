(** The errors (C52). *)
From Coq Require Import QArith Permutation.
From Verif Require Import Base Bytes PyStr Dict SgfPropsSpec CommonModel GameplayModel TournModel TournSpec TournProofs TournConfProofs
  SettingsModel SettingsSpec SettingsProofs SettingsLoadProofs SettingsConfigProofs SettingsMoreProofs ControlModel ControlSpec ControlProofs ControlPlayerProofs ControlGameProofs ControlMatchupProofs ControlAllProofs.
From Verif Require GtpModel.
Open Scope Z_scope.

(** Only floats can fail otherwise than with ValueError. *)
Definition tame (floats : list string) (settings : list setting) : Prop :=
  Forall (fun s => refuses_properly (st_interpreter s) \/ (st_interpreter s = interpret_float /\ exists name, In name floats /\ st_name s = str name)) settings.
Lemma float_bad v e : interpret_float v = Bad e -> (exists t, e = SValue t) \/ (e = SOther OverflowError /\ exists z, (v = VInt z \/ v = VLong z) /\ float_of_int z = None).
Proof.
  unfold interpret_float, bad. destruct v; try discriminate; try (intros E; injection E as <-; left; eauto; fail).
  - destruct (float_of_int z) eqn:F; [discriminate|]. intros E. injection E as <-. right. split; [reflexivity|]. eauto.
  - destruct (float_of_int z) eqn:F; [discriminate|]. intros E. injection E as <-. right. split; [reflexivity|]. eauto.
Qed.
Definition load_error (config : dict pyval) (floats : list string) (e : serr) : Prop :=
  (exists t, e = SValue t) \/ (e = SOther OverflowError /\ exists name, In name floats /\ too_big config name).
Lemma setting_error floats s config e : (refuses_properly (st_interpreter s) \/ (st_interpreter s = interpret_float /\ exists name, In name floats /\ st_name s = str name)) ->
  setting_value s config = Bad e -> e <> SKey -> load_error config floats e.
Proof.
  intros T. unfold setting_value. destruct (dget (st_name s) config) as [v|] eqn:D; [|congruence].
  assert (I : forall w, given config (st_name s) w -> setting_interpret s w = Bad e -> e <> SKey -> load_error config floats e).
  { intros w GW H N. rewrite setting_interpret_spec in H. destruct (st_interpreter s w) as [x|e'] eqn:E; [discriminate|]. destruct T as [R|(F & name & IN & SN)].
    - destruct (R _ _ E) as (t & ->). injection H as <-. left. eauto.
    - rewrite F in E. destruct (float_bad _ _ E) as [(t & ->)|(-> & z & Z1 & Z2)]; injection H as <-; [left; eauto|]. right. split; [reflexivity|].
      exists name. split; [exact IN|]. exists w, z. rewrite <- SN. auto. }
  destruct (match v with VProxy _ _ => true | _ => false end) eqn:P.
  - destruct v; try discriminate. unfold resolve_proxy. destruct made as [w|m].
    + cbn [sbind prefix_value]. apply I. exists (VProxy cls (inl w)). split; [exact D|]. right. eauto.
    + cbn. intros E _. injection E as <-. left. eauto.
  - intros H. apply (I v).
    + exists v. split; [exact D|]. left. split; [reflexivity|]. intros c m ->. discriminate.
    + rewrite <- H. destruct v; try reflexivity. discriminate.
Qed.
Lemma load_bad floats settings config ad am e : tame floats settings -> load_settings settings config ad am = Bad e -> load_error config floats e.
Proof.
  intros T. revert e. induction T as [|s l T1 T IH]; intros e; [discriminate|]. cbn [load_settings].
  destruct (setting_value s config) as [x|e'] eqn:SV.
  - destruct (load_settings l config ad am) as [r|e2]; cbn [sbind]; [discriminate|]. intros E. injection E as <-. apply IH. reflexivity.
  - destruct (match e' with SKey => true | _ => false end) eqn:K.
    + destruct e'; try discriminate. assert (M : (if am then load_settings l config ad am else Bad (SValue (str "'" ++ st_name s ++ str "' not specified"))) = Bad e -> load_error config floats e).
      { destruct am; [apply IH|]. intros E. injection E as <-. left. eauto. }
      destruct ad; [|exact M]. unfold get_default. destruct (st_default s); [|exact M].
      destruct (load_settings l config true am) as [r|e2]; cbn [sbind]; [discriminate|]. intros E. injection E as <-. apply IH. reflexivity.
    + intros E. assert (e' = e) as ->. { destruct e'; try discriminate; injection E as <-; reflexivity. }
      eapply setting_error; [exact T1|exact SV|]. intros ->. discriminate.
Qed.
Lemma load_control {A} floats settings config ad am e (f : dict pyval -> sres A) : tame floats settings ->
  (forall d, load_settings settings config ad am = Good d -> f d = Bad e -> control_file_error config floats e) ->
  (try d <- control_error (load_settings settings config ad am); f d) = Bad e -> control_file_error config floats e.
Proof.
  intros T H. destruct (load_settings settings config ad am) as [d|e'] eqn:L.
  - cbn [control_error sbind]. apply H. reflexivity.
  - destruct (load_bad _ _ _ _ _ _ T L) as [(t & ->)|(-> & X)]; cbn [control_error sbind]; intros E; injection E as <-; [left; eauto|right; auto].
Qed.
Lemma bind_bad {A B} (m : sres A) (f : A -> sres B) e : sbind m f = Bad e -> m = Bad e \/ exists a, m = Good a /\ f a = Bad e.
Proof. destruct m as [a|e']; cbn [sbind]; [right; eauto|]. intros E. left. congruence. Qed.
Lemma any_bad {A} en p (m : sres A) e : any_error en p m = Bad e -> exists t, e = SControl t.
Proof. destruct m as [a|e']; [discriminate|]. cbn. intros E. injection E as <-. eauto. Qed.

Lemma tame_refuses floats settings : Forall (fun s => refuses_properly (st_interpreter s)) settings -> tame floats settings.
Proof. intros F. eapply Forall_impl; [|exact F]. intros s R. left. exact R. Qed.
Lemma base_refuses : Forall (fun s => refuses_properly (st_interpreter s)) base_settings.
Proof. constructor; [|constructor]. apply allow_none_refuses, utf8_stripped_refuses. Qed.
Lemma pc_refuses : refuses_properly interpret_pc.
Proof. intros v e. unfold interpret_pc, bad. destruct v; try (intros E; injection E as <-; eauto; fail); try discriminate. destruct (bytes_eqb _ _); [discriminate|]. intros E. injection E as <-. eauto. Qed.
Lemma players_refuses : Forall (fun s => refuses_properly (st_interpreter s)) players_settings.
Proof.
  constructor; [|constructor]. cbn [st_interpreter]. apply map_of_refuses; [apply identifier_refuses|apply pc_refuses|]. intros v r H. apply identifier_good in H. destruct H as (s & -> & _). eauto.
Qed.
Ltac tame_tac := repeat (apply Forall_cons; [cbn [st_interpreter st_name];
  first [left; first [apply enum_refuses|apply board_size_refuses|apply allow_none_refuses, int_refuses|apply positive_refuses|apply int_refuses|apply bool_refuses
                     |apply candidate_colour_refuses|apply allow_none_refuses, positive_refuses|apply sequence_of_refuses, int_refuses|apply allow_none_refuses, utf8_stripped_refuses]
        |right; split; [reflexivity|eexists; split; [|reflexivity]; cbn; tauto]]|]); apply Forall_nil.
Lemma game_tame : tame ["komi"%string] game_settings.
Proof. unfold tame, game_settings. tame_tac. Qed.
Lemma tame_app floats a b : tame floats a -> tame floats b -> tame floats (a ++ b).
Proof. intros A B. apply Forall_app. auto. Qed.
Lemma tame_more floats floats' a : (forall x, In x floats -> In x floats') -> tame floats a -> tame floats' a.
Proof. intros H F. eapply Forall_impl; [|exact F]. intros s [R|(E & n & I & N)]; [left; exact R|right]. split; [exact E|]. exists n. auto. Qed.
Lemma matchup_tame : tame ["komi"%string] matchup_settings.
Proof.
  apply tame_app; [exact game_tame|]. apply tame_refuses. constructor; [apply bool_refuses|]. constructor; [apply allow_none_refuses, int_refuses|constructor].
Qed.
Lemma allplayall_tame : tame ["komi"%string] allplayall_settings.
Proof. rewrite allplayall_settings_are. unfold tame, sBS, sKO, sML, sSC, sCO, sRO. tame_tac. Qed.

(** The players *)
Definition player_entries (l : list (pyval * pyval)) : Prop := Forall (fun p => exists s args kwargs, p = (VStr s, VConfig (str "Player") args kwargs)) l.
Lemma make_players_bad en l : player_entries l -> forall d e, make_players en l d = Bad e -> exists t, e = SControl t.
Proof.
  intros F. induction F as [|p l (s & args & kwargs & ->) F IH]; intros d e; [discriminate|]. cbn [make_players]. cbn [as_text key_text sbind].
  intros H. apply bind_bad in H. destruct H as [H|(q & _ & H)]; [exact (any_bad _ _ _ _ H)|exact (IH _ _ H)].
Qed.
Lemma map_of_shape key value v r : (forall k y, key k = Good y -> exists s, y = VStr s) -> interpret_map_of key value v = Good r ->
  exists es, r = VList (map entry_value es) /\ forall n x, In (n, x) es -> exists w, value w = Good x.
Proof.
  intros KS. unfold interpret_map_of. intros H. apply bind_good in H. destruct H as (es & M & E). injection E as <-. apply map_of_ok in M. destruct M as (items & xs & _ & F & ->).
  exists (sort_items xs). split; [reflexivity|]. intros n x I. assert (J : In (n, x) xs) by (eapply Permutation_in; [apply sort_items_perm|exact I]).
  destruct (forall2_in_r _ _ _ F _ J) as ([k w] & _ & K). unfold item_ok in K. cbn [fst snd] in K. destruct K as (_ & V). eauto.
Qed.
Lemma players_value config d y : load_settings players_settings config true false = Good d -> get "players" d = Good y ->
  exists l, pairs_in y = Good l /\ player_entries l.
Proof.
  intros L G. apply load_good in L; [|exact players_keys]. apply loaded_cons in L. destruct L as (x & d' & -> & L & F). cbn [st_name] in G. rewrite get_here in G. injection G as ->.
  destruct L as [(v & GV & I)|[_ X]]; [|discriminate]. cbn [st_interpreter] in I. apply map_of_shape in I.
  2:{ intros k z K. apply identifier_good in K. destruct K as (s & -> & _). eauto. }
  destruct I as (es & -> & V). exists (map (fun p => (VStr (fst p), snd p)) es). split; [apply pairs_in_entries|]. unfold player_entries. rewrite Forall_map, Forall_forall.
  intros [n x] I. destruct (V n x I) as (w & W). apply pc_ok in W. destruct W as (-> & args & kwargs & ->). exists n, args, kwargs. reflexivity.
Qed.
Lemma loaded_one s config d : load_settings [s] config true false = Good d -> never_key (st_interpreter s) -> exists y, d = [(st_name s, y)].
Proof. intros L NK. apply load_good in L; [|repeat constructor; exact NK]. apply loaded_cons in L. destruct L as (x & d' & -> & _ & F). apply loaded_nil in F. subst. eauto. Qed.

Lemma competition_bad {A} en floats settings config (f : dict pyval * dict player -> sres A) e : tame floats settings ->
  (forall r, competition_from_control en settings config = Good r -> f r = Bad e -> control_file_error config floats e) ->
  sbind (competition_from_control en settings config) f = Bad e -> control_file_error config floats e.
Proof.
  intros T H B. apply bind_bad in B. destruct B as [B|(r & C & B)]; [|exact (H r C B)]. clear H. unfold competition_from_control in B.
  revert B. apply load_control; [exact T|]. intros d _. apply load_control; [apply tame_refuses, players_refuses|]. intros d2 L2 B.
  destruct (loaded_one _ _ _ L2 (Forall_inv players_keys)) as (y & ->). cbn [st_name] in *. rewrite get_here in B. cbn [sbind] in B.
  destruct (players_value _ _ y L2 (get_here _ _ _)) as (l & P & PE). rewrite P in B. cbn [sbind] in B.
  apply bind_bad in B. destruct B as [B|(ps & _ & B)]; [|discriminate]. left. exact (make_players_bad _ _ PE _ _ B).
Qed.

Lemma description_total config d : load_settings base_settings config true false = Good d -> exists o, description_of d = Good o.
Proof.
  intros L. apply load_found in L; [|exact base_keys].
  destruct (all_found_get [config] base_settings d _ L ltac:(cbn; repeat constructor; intros []) (or_introl eq_refl)) as (y & G & F). cbn [st_name] in G.
  unfold description_of, get. rewrite G. cbn [sbind].
  refine (found_total [config] (mkSetting (str "description") (allow_none interpret_as_utf8_stripped) (Some VNone)) _ (Some None) y _ (ex_intro _ None (conj eq_refl eq_refl)) F).
  cbn [st_interpreter]. apply total_none. intros v z E. unfold interpret_as_utf8_stripped in E. apply bind_good in E. destruct E as (w & U & E). apply utf8_is_str in U. destruct U as (s & ->). injection E as <-.
  eexists. reflexivity.
Qed.
Lemma found_in {A} settings config d s name (conv : pyval -> sres A) default : all_found [config] settings d -> NoDup (map st_name settings) -> In s settings -> st_name s = str name ->
  total (st_interpreter s) conv -> converts conv (st_default s) default -> exists a, (try v <- get name d; conv v) = Good a.
Proof.
  intros F ND I N T C. destruct (all_found_get _ _ _ _ F ND I) as (y & G & FY). unfold get. rewrite <- N, G. cbn [sbind]. exact (found_total _ _ _ _ _ T C FY).
Qed.
Lemma total_enum {A} values (g : bytes -> A) : total (interpret_enum values) (fun v => try s <- as_text v; Good (g s)).
Proof. intros v y E. destruct (enum_total _ _ _ E) as (s & C). rewrite C. cbn [sbind]. eauto. Qed.

Section Komi.
Variable to_num : pyfloat -> num.

Lemma default_check_bad config defaults e : load_settings matchup_settings config true true = Good defaults -> default_check defaults = Bad e -> exists t, e = SControl t.
Proof.
  intros L. unfold default_check.
  assert (G : forall {A} s name (conv : pyval -> sres A), In s matchup_settings -> st_name s = str name -> total (st_interpreter s) conv ->
     (forall y, st_default s = Some y -> exists a, conv y = Good a) -> (st_default s <> None \/ exists y, dget (st_name s) defaults = Some y) -> exists a, (try v <- get name defaults; conv v) = Good a).
  { intros A s name conv I N T C P. pose proof (load_partial_get _ _ _ _ s matchup_settings_keys matchup_settings_nodup L I) as LP. unfold get. rewrite <- N.
    destruct (dget (st_name s) defaults) as [y|] eqn:D; cbn [sbind].
    - destruct (proj1 (LP y) eq_refl) as [(v & _ & E)|(_ & _ & E)]; [exact (T _ _ E)|exact (C _ E)].
    - exfalso. destruct P as [P|(y & P)]; [|discriminate]. destruct (st_default s) as [y|] eqn:DE; [|congruence].
      assert (OK := proj1 (load_partial_ok matchup_settings config true matchup_settings_keys) (ex_intro _ _ L) s I).
      destruct OK as [O|(y' & O)]; [assert (None = Some y) by (apply LP; auto); discriminate|assert (None = Some y') by (apply LP; auto); discriminate]. }
  unfold dmem. destruct (dget (str "board_size") defaults) as [y|] eqn:D; [|discriminate].
  destruct (G Z (mkSetting (str "board_size") interpret_board_size None) "board_size"%string as_int ltac:(cbn; tauto) eq_refl total_size ltac:(intros; discriminate) (or_intror (ex_intro _ y D))) as (size & E1).
  destruct (G _ (mkSetting (str "handicap") (allow_none interpret_int) (Some VNone)) "handicap"%string (as_option as_int) ltac:(cbn; tauto) eq_refl (total_none _ _ total_int)
    ltac:(intros y0 E; injection E as <-; exists None; reflexivity) ltac:(left; discriminate)) as (h & E2).
  destruct (G _ (mkSetting (str "handicap_style") (interpret_enum [str "fixed"; str "free"]) (Some (VStr (str "fixed")))) "handicap_style"%string is_free ltac:(cbn; tauto) eq_refl (total_enum _ _)
    ltac:(intros y0 E; injection E as <-; eexists; reflexivity) ltac:(left; discriminate)) as (fr & E3).
  rewrite E1. cbn [sbind]. rewrite E2. cbn [sbind]. rewrite E3. cbn [sbind].
  unfold check_handicap. destruct (validate_handicap h fr size); [discriminate|]. intros E. injection E as <-. eauto.
Qed.

Lemma matchups_bad en event_code l : Forall (fun v => exists args kwargs, v = VConfig (str "Matchup") args kwargs) l ->
  forall i players defaults done e, matchups_from_control to_num en event_code i players l defaults done = Bad e -> exists t, e = SControl t.
Proof.
  intros FA. induction FA as [|v l (args & kwargs & ->) FA IH]; intros i players defaults done e; [discriminate|]. cbn [matchups_from_control].
  intros H. apply bind_bad in H. destruct H as [H|([ps m] & _ & H)].
  - unfold matchup_from_control, matchup_error in H. apply bind_bad in H. destruct H as [H|(d & _ & H)]; [exact (any_bad _ _ _ _ H)|].
    apply bind_bad in H. destruct H as [H|(id & _ & H)]; exact (any_bad _ _ _ _ H).
  - destruct (bmem _ _); [injection H as <-; eauto|exact (IH _ _ _ _ _ H)].
Qed.

Theorem playoff_errors en event_code config e : playoff_from_control to_num en event_code config = Bad e -> control_file_error config ["komi"%string] e.
Proof.
  unfold playoff_from_control. apply competition_bad; [apply tame_refuses, base_refuses|]. intros [at_ ps] CO.
  apply load_control; [exact matchup_tame|]. intros defaults LD H. fold (default_check defaults) in H. apply bind_bad in H.
  destruct H as [H|(u & _ & H)]; [left; exact (default_check_bad _ _ _ LD H)|]. revert H.
  apply load_control; [apply tame_refuses; constructor; [apply sequence_of_refuses, quiet_config_refuses|constructor]|]. intros sp LS H.
  destruct (loaded_one _ _ _ LS (Forall_inv playoff_special_keys)) as (y & ->). cbn [st_name] in *. rewrite get_here in H. cbn [sbind] in H.
  destruct (playoff_special_list _ _ _ LS (get_here _ _ _)) as (l & ->). cbn [list_of] in H.
  destruct (proj1 (playoff_special_spec config l) (ex_intro _ _ (conj LS (get_here _ _ _)))) as (v & _ & _ & FA).
  left. destruct l as [|v0 l]; [injection H as <-; eauto|]. apply bind_bad in H. destruct H as [H|(r & _ & H)]; [exact (matchups_bad _ _ _ FA _ _ _ _ _ H)|].
  assert (LB : load_settings base_settings config true false = Good at_).
  { unfold competition_from_control in CO. apply bind_good in CO. destruct CO as (d & L & CO). apply (proj1 (control_good _ _)) in L. apply bind_good in CO. destruct CO as (d2 & _ & CO).
    apply bind_good in CO. destruct CO as (d3 & _ & CO). apply bind_good in CO. destruct CO as (d4 & _ & CO). apply bind_good in CO. destruct CO as (d5 & _ & CO). congruence. }
  destruct (description_total _ _ LB) as (o & D). rewrite D in H. discriminate.
Qed.

Lemma competitors_bad en players l : forall i seen e, Forall (fun v => exists args kwargs, v = VConfig (str "Competitor") args kwargs) l ->
  competitors_from_control en i players l seen = Bad e -> exists t, e = SControl t.
Proof.
  induction l as [|v l IH]; intros i seen e FA; [discriminate|]. inversion FA as [|? ? (args & kwargs & ->) FA']; subst. cbn [competitors_from_control].
  intros H. apply bind_bad in H. destruct H as [H|(c & _ & H)]; [exact (any_bad _ _ _ _ H)|]. destruct (bmem _ _); [injection H as <-; eauto|].
  apply bind_bad in H. destruct H as [H|(r & _ & H)]; [exact (IH _ _ _ FA' H)|discriminate].
Qed.
Lemma competition_loaded en settings config at_ ps : competition_from_control en settings config = Good (at_, ps) -> load_settings settings config true false = Good at_.
Proof.
  unfold competition_from_control. intros CO. apply bind_good in CO. destruct CO as (d & L & CO). apply (proj1 (control_good _ _)) in L. apply bind_good in CO. destruct CO as (d2 & _ & CO).
  apply bind_good in CO. destruct CO as (d3 & _ & CO). apply bind_good in CO. destruct CO as (d4 & _ & CO). apply bind_good in CO. destruct CO as (d5 & _ & CO). congruence.
Qed.
Theorem allplayall_errors en event_code config e : allplayall_from_control to_num en event_code config = Bad e -> control_file_error config ["komi"%string] e.
Proof.
  unfold allplayall_from_control. apply competition_bad; [apply tame_refuses, base_refuses|]. intros [at_ ps] CO.
  apply load_control; [exact allplayall_tame|]. intros d LD. apply load_all in LD. destruct (games_exist to_num config d LD) as (y6 & s & rounds & G6 & _ & CM).
  rewrite G6. cbn [sbind]. fold (with_rounds d y6).
  apply load_control; [apply tame_refuses; constructor; [apply sequence_of_refuses, quiet_config_refuses|constructor]|]. intros sp LS H.
  destruct (loaded_one _ _ _ LS (Forall_inv allplayall_special_keys)) as (y & ->). cbn [st_name] in *. rewrite get_here in H. cbn [sbind] in H.
  destruct (competitors_loaded _ _ _ LS (get_here _ _ _)) as (v & l & _ & _ & ->). cbn [list_of] in H.
  left. assert (FA : Forall (fun v => exists args kwargs, v = VConfig (str "Competitor") args kwargs) (map as_competitor l)).
  { rewrite Forall_map, Forall_forall. intros x _. unfold as_competitor. destruct x; eauto. destruct (bytes_eqb_spec cls (str "Competitor")) as [->|]; eauto. }
  destruct (map as_competitor l) as [|v0 l0]; [injection H as <-; eauto|]. apply bind_bad in H. destruct H as [H|(cs & _ & H)]; [exact (competitors_bad _ _ _ _ _ _ FA H)|].
  apply bind_bad in H. destruct H as [H|(ms & _ & H)].
  - exfalso. assert (AM : exists r, all_meetings to_num en event_code (with_rounds d y6) cs = Good r); [|destruct AM; congruence].
    clear -CM. induction cs as [|c cs (r & IH)]; [eexists; reflexivity|]. cbn [all_meetings].
    assert (M : exists r, meetings to_num en event_code (with_rounds d y6) c cs = Good r).
    { clear IH. induction cs as [|c2 cs (r' & IH)]; [eexists; reflexivity|]. cbn [meetings]. rewrite CM. cbn [any_error sbind]. rewrite IH. eexists. reflexivity. }
    destruct M as (r' & ->). cbn [sbind]. rewrite IH. eexists. reflexivity.
  - destruct (description_total _ _ (competition_loaded _ _ _ _ _ CO)) as (o & D). rewrite D in H. discriminate.
Qed.
End Komi.
