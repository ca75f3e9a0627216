(** What tuners' control files mean (C55). *)
From Coq Require Import QArith Qround Permutation.
From Verif Require Import Base Bytes PyStr Dict SgfPropsSpec CommonModel GameplayModel TournModel TournSpec TournProofs TournConfProofs
  SettingsModel SettingsSpec SettingsProofs SettingsLoadProofs SettingsConfigProofs SettingsMoreProofs ControlModel ControlSpec ControlProofs ControlPlayerProofs ControlGameProofs ControlMatchupProofs ControlAllProofs ControlErrorProofs ControlTunerProofs.
From Verif Require GtpModel.
Open Scope Z_scope.

Lemma game_found to_num ds s : game_described to_num ds s -> forall x, In x game_settings -> exists y, found ds x y.
Proof.
  intros (H1 & (f & H2 & _) & H3 & H4 & H5 & H6 & H7) x I. unfold game_settings in I.
  destruct I as [<-|[<-|[<-|[<-|[<-|[<-|[<-|[]]]]]]]].
  - apply (found_bridge ds (mkSetting (str "board_size") interpret_board_size None) "board_size" as_int size_value None _ eq_refl reads_size eq_refl) in H1. destruct H1 as (y & Y & _). eauto.
  - apply (found_bridge ds (mkSetting (str "komi") interpret_float None) "komi" as_float float_value None _ eq_refl reads_float eq_refl) in H2. destruct H2 as (y & Y & _). eauto.
  - apply (found_bridge ds (mkSetting (str "handicap") (allow_none interpret_int) (Some VNone)) "handicap" (as_option as_int) (none_or int_value) (Some None) _ eq_refl
      (reads_none _ _ _ int_not_none reads_int) (ex_intro _ None (conj eq_refl eq_refl))) in H3. destruct H3 as (y & Y & _). eauto.
  - apply (found_bridge ds (mkSetting (str "handicap_style") (interpret_enum [str "fixed"; str "free"]) (Some (VStr (str "fixed")))) "handicap_style" is_free (choice_value style_table) (Some false) _ eq_refl
      reads_style (ex_intro _ false (conj eq_refl eq_refl))) in H4. destruct H4 as (y & Y & _). eauto.
  - apply (found_bridge ds (mkSetting (str "move_limit") interpret_positive_int (Some (VInt 1000))) "move_limit" as_int positive_value (Some 1000) _ eq_refl
      reads_positive (ex_intro _ 1000 (conj eq_refl eq_refl))) in H5. destruct H5 as (y & Y & _). eauto.
  - apply (found_bridge ds (mkSetting (str "scorer") (interpret_enum [str "internal"; str "players"]) (Some (VStr (str "players")))) "scorer" scorer_of (choice_value scorer_table) (Some false) _ eq_refl
      reads_scorer (ex_intro _ false (conj eq_refl eq_refl))) in H6. destruct H6 as (y & Y & _). eauto.
  - apply (found_bridge ds (mkSetting (str "internal_scorer_handicap_compensation") (interpret_enum [str "no"; str "full"; str "short"]) (Some (VStr (str "full")))) "internal_scorer_handicap_compensation"
      as_compensation (choice_value compensation_table) (Some CompFull) _ eq_refl reads_compensation (ex_intro _ CompFull (conj eq_refl eq_refl))) in H7. destruct H7 as (y & Y & _). eauto.
Qed.

Definition uDE := mkSetting (str "description") (allow_none interpret_as_utf8_stripped) (Some VNone).
Definition uCC := mkSetting (str "candidate_colour") interpret_candidate_colour None.
Definition uBA := mkSetting (str "batch_size") interpret_positive_int None.
Definition uSA := mkSetting (str "samples_per_generation") interpret_positive_int None.
Definition uGE := mkSetting (str "number_of_generations") interpret_positive_int None.
Definition uEL := mkSetting (str "elite_proportion") interpret_float None.
Definition uST := mkSetting (str "step_size") interpret_float None.
Definition uNG := mkSetting (str "number_of_games") (allow_none interpret_int) (Some VNone).
Definition uLP := mkSetting (str "log_tree_to_history_period") (allow_none interpret_positive_int) (Some VNone).
Definition uSU := mkSetting (str "summary_spec") (interpret_sequence_of interpret_int) (Some (VList [VInt 30])).
Definition uSH := mkSetting (str "number_of_running_simulations_to_show") interpret_int (Some (VInt 12)).
Definition uMD := mkSetting (str "max_depth") interpret_positive_int (Some (VInt 1)).
Definition uEX := mkSetting (str "exploration_coefficient") interpret_float None.
Definition uIV := mkSetting (str "initial_visits") interpret_positive_int None.
Definition uIW := mkSetting (str "initial_wins") interpret_positive_int None.
Definition uKO := mkSetting (str "komi") interpret_float None.

Lemma candidate_colour_never_key : never_key interpret_candidate_colour.
Proof. intros v. unfold interpret_candidate_colour. destruct (is_one_of _ v); [discriminate|apply colour_never_key]. Qed.
Lemma game_keys : never_keys game_settings.
Proof. pose proof matchup_settings_keys as K. unfold never_keys, matchup_settings in *. apply Forall_app in K. exact (proj1 K). Qed.
Lemma cem_keys : never_keys cem_settings.
Proof.
  unfold never_keys, cem_settings. apply Forall_app. split; [exact base_keys|]. apply Forall_app. split; [exact game_keys|].
  repeat (apply Forall_cons; [cbn [st_interpreter]; first [apply candidate_colour_never_key|apply positive_never_key|apply float_never_key]|]). constructor.
Qed.
Lemma mcts_keys : never_keys mcts_settings.
Proof.
  unfold never_keys, mcts_settings. apply Forall_app. split; [exact base_keys|]. apply Forall_app. split; [exact game_keys|].
  repeat (apply Forall_cons; [cbn [st_interpreter]; first [apply candidate_colour_never_key|apply allow_none_never_key, int_never_key|apply allow_none_never_key, positive_never_key|apply sequence_of_never_key, int_never_key|apply int_never_key]|]). constructor.
Qed.
Lemma tree_keys : never_keys tree_settings.
Proof.
  unfold never_keys, tree_settings.
  repeat (apply Forall_cons; [cbn [st_interpreter]; first [apply positive_never_key|apply float_never_key]|]). constructor.
Qed.
Lemma cem_nodup : NoDup (map st_name cem_settings).
Proof. apply nodup_names. vm_compute. reflexivity. Qed.
Lemma mcts_nodup : NoDup (map st_name mcts_settings).
Proof. apply nodup_names. vm_compute. reflexivity. Qed.
Lemma tree_nodup : NoDup (map st_name tree_settings).
Proof. apply nodup_names. vm_compute. reflexivity. Qed.

Section Tuners.
Context {V : Type}.
Variable apply : nat -> pyfloat -> option V.
Variable formats : bytes -> V -> bool.
Variable to_num : pyfloat -> num.

Theorem cem_spec en config c : proper_players config -> proper_parameters config ->
  cem_from_control to_num apply formats en config = Good c <-> cem_described apply formats to_num en config c.
Proof.
  intros PP PM. unfold cem_from_control, cem_described.
  assert (SP : forall players op ps mk, tuner_specials en cem_parameter_class (cem_parameter_from_control apply formats) cp_code players config = Good (op, ps, mk) <->
    tuner_described (cem_parameter_described apply formats) cp_code config players op ps mk).
  { intros players op ps mk. apply specials_spec; [intros; apply cem_parameter_spec; assumption|intros v p (a & k & _ & _ & _ & -> & _); eauto|exact PM]. }
  assert (G : forall d, load_settings cem_settings config true false = Good d ->
    (forall x, settings_of to_num d = Good x <-> game_described to_num [config] x) /\
    (forall x, description_of d = Good x <-> description_is config x) /\
    (forall x, (try v <- get "candidate_colour" d; colour_of v) = Good x <-> value_in [config] "candidate_colour" candidate_colour_value None x) /\
    (forall x, (try v <- get "batch_size" d; as_int v) = Good x <-> value_in [config] "batch_size" positive_value None x) /\
    (forall x, (try v <- get "samples_per_generation" d; as_int v) = Good x <-> value_in [config] "samples_per_generation" positive_value None x) /\
    (forall x, (try v <- get "number_of_generations" d; as_int v) = Good x <-> value_in [config] "number_of_generations" positive_value None x) /\
    (forall x, (try v <- get "elite_proportion" d; as_float v) = Good x <-> value_in [config] "elite_proportion" float_value None x) /\
    (forall x, (try v <- get "step_size" d; as_float v) = Good x <-> value_in [config] "step_size" float_value None x)).
  { intros d L. pose proof L as L'. apply load_found in L'; [|exact cem_keys].
    split; [|split; [|split; [|split; [|split; [|split; [|split]]]]]]; intros x.
    - apply (settings_of_spec to_num [config] cem_settings d x L' cem_nodup). intros z I. unfold cem_settings. apply in_or_app. right. apply in_or_app. left. exact I.
    - apply (description_spec [config] cem_settings d x L' cem_nodup). unfold cem_settings. apply in_or_app. left. left. reflexivity.
    - apply (get_found config _ d uCC "candidate_colour" colour_of _ _ _ L cem_keys cem_nodup); [cbn; tauto|reflexivity|exact reads_colour|reflexivity].
    - apply (get_found config _ d uBA "batch_size" as_int _ _ _ L cem_keys cem_nodup); [cbn; tauto|reflexivity|exact reads_positive|reflexivity].
    - apply (get_found config _ d uSA "samples_per_generation" as_int _ _ _ L cem_keys cem_nodup); [cbn; tauto|reflexivity|exact reads_positive|reflexivity].
    - apply (get_found config _ d uGE "number_of_generations" as_int _ _ _ L cem_keys cem_nodup); [cbn; tauto|reflexivity|exact reads_positive|reflexivity].
    - apply (get_found config _ d uEL "elite_proportion" as_float _ _ _ L cem_keys cem_nodup); [cbn; tauto|reflexivity|exact reads_float|reflexivity].
    - apply (get_found config _ d uST "step_size" as_float _ _ _ L cem_keys cem_nodup); [cbn; tauto|reflexivity|exact reads_float|reflexivity]. }
  split.
  - intros H. apply bind_good in H. destruct H as ([d ps] & C & H). apply (competition_spec en cem_settings config d ps PP) in C. destruct C as [L PD].
    destruct (G d L) as (G0 & G1 & G2 & G3 & G4 & G5 & G6 & G7).
    apply bind_good in H. destruct H as (s & S & H). apply bind_good in H. destruct H as ([] & CH & H).
    apply bind_good in H. destruct H as (el & E1 & H). apply bind_good in H. destruct H as (st & E2 & H).
    destruct (strictly_between_0_1 el) eqn:B1; cbn [negb] in H; [|discriminate]. destruct (strictly_between_0_1 st) eqn:B2; cbn [negb] in H; [|discriminate].
    apply bind_good in H. destruct H as ([[op pars] mk] & SPE & H). apply bind_good in H. destruct H as (de & DE & H). apply bind_good in H. destruct H as (co & CO & H).
    apply bind_good in H. destruct H as (ba & BA & H). apply bind_good in H. destruct H as (sa & SA & H). apply bind_good in H. destruct H as (ge & GE & H). injection H as <-.
    cbn [ce_description ce_players ce_settings ce_colour ce_batch_size ce_samples ce_generations ce_elite ce_step ce_opponent ce_parameters ce_maker].
    apply G0 in S. destruct (described_size _ _ _ S) as [SZ ML]. apply check_handicap_ok in CH; [|exact SZ].
    split; [apply G1; exact DE|]. split; [exact PD|]. split; [exact S|]. split; [split; [exact SZ|split; [exact ML|exact CH]]|].
    split; [apply G2; exact CO|]. split; [apply G3; exact BA|]. split; [apply G4; exact SA|]. split; [apply G5; exact GE|]. split; [apply G6; exact E1|].
    split; [apply between_spec; exact B1|]. split; [apply G7; exact E2|]. split; [apply between_spec; exact B2|]. apply SP. exact SPE.
  - intros (DE & PD & S & (SZ & ML & CH) & CO & BA & SA & GE & E1 & B1 & E2 & B2 & SPE).
    assert (L : exists d, load_settings cem_settings config true false = Good d).
    { assert (F : exists d, all_found [config] cem_settings d).
      { apply all_found_total. intros x I. unfold cem_settings in I. apply in_app_or in I. destruct I as [[<-|[]]|I].
        - apply (found_of_value config uDE "description" (as_option as_text) (none_or description_value) (Some None) _ DE); [reflexivity|exact (reads_none _ _ _ stripped_not_none reads_description)|exists None; auto].
        - apply in_app_or in I. destruct I as [I|I]; [exact (game_found _ _ _ S x I)|]. destruct I as [<-|[<-|[<-|[<-|[<-|[<-|[]]]]]]].
          + apply (found_of_value config uCC "candidate_colour" colour_of _ _ _ CO); [reflexivity|exact reads_colour|reflexivity].
          + apply (found_of_value config uBA "batch_size" as_int _ _ _ BA); [reflexivity|exact reads_positive|reflexivity].
          + apply (found_of_value config uSA "samples_per_generation" as_int _ _ _ SA); [reflexivity|exact reads_positive|reflexivity].
          + apply (found_of_value config uGE "number_of_generations" as_int _ _ _ GE); [reflexivity|exact reads_positive|reflexivity].
          + apply (found_of_value config uEL "elite_proportion" as_float _ _ _ E1); [reflexivity|exact reads_float|reflexivity].
          + apply (found_of_value config uST "step_size" as_float _ _ _ E2); [reflexivity|exact reads_float|reflexivity]. }
      destruct F as (d & F). exists d. apply load_found; [exact cem_keys|exact F]. }
    destruct L as (d & L). rewrite (proj2 (competition_spec en cem_settings config d _ PP) (conj L PD)). cbn [sbind].
    destruct (G d L) as (G0 & G1 & G2 & G3 & G4 & G5 & G6 & G7).
    rewrite (proj2 (G0 _) S). cbn [sbind]. rewrite (proj2 (check_handicap_ok _ _ _ SZ) CH). cbn [sbind]. rewrite (proj2 (G6 _) E1). cbn [sbind]. rewrite (proj2 (G7 _) E2). cbn [sbind].
    rewrite (proj2 (between_spec _) B1), (proj2 (between_spec _) B2). cbn [negb]. rewrite (proj2 (SP _ _ _ _) SPE). cbn [sbind]. rewrite (proj2 (G1 _) DE). cbn [sbind].
    rewrite (proj2 (G2 _) CO). cbn [sbind]. rewrite (proj2 (G3 _) BA). cbn [sbind]. rewrite (proj2 (G4 _) SA). cbn [sbind]. rewrite (proj2 (G5 _) GE). cbn [sbind]. destruct c. reflexivity.
Qed.

Theorem mcts_spec en config c : proper_players config -> proper_parameters config ->
  mcts_from_control to_num apply formats en config = Good c <-> mcts_described apply formats to_num en config c.
Proof.
  intros PP PM. unfold mcts_from_control, mcts_described.
  assert (SP : forall players op ps mk, tuner_specials en mcts_parameter_class (mcts_parameter_from_control apply formats) mp_code players config = Good (op, ps, mk) <->
    tuner_described (mcts_parameter_described apply formats) mp_code config players op ps mk).
  { intros players op ps mk. apply specials_spec; [intros; apply mcts_parameter_spec; assumption|intros v p (a & k & _ & _ & _ & -> & _); eauto|exact PM]. }
  assert (G : forall d, load_settings mcts_settings config true false = Good d ->
    (forall x, settings_of to_num d = Good x <-> game_described to_num [config] x) /\
    (forall x, description_of d = Good x <-> description_is config x) /\
    (forall x, (try v <- get "komi" d; as_float v) = Good x <-> value_in [config] "komi" float_value None x) /\
    (forall x, (try v <- get "number_of_games" d; as_option as_int v) = Good x <-> value_in [config] "number_of_games" (none_or int_value) (Some None) x) /\
    (forall x, (try v <- get "candidate_colour" d; colour_of v) = Good x <-> value_in [config] "candidate_colour" candidate_colour_value None x) /\
    (forall x, (try v <- get "log_tree_to_history_period" d; as_option as_int v) = Good x <-> value_in [config] "log_tree_to_history_period" (none_or positive_value) (Some None) x) /\
    (forall x, (try v <- get "summary_spec" d; ints_of v) = Good x <-> value_in [config] "summary_spec" ints_value (Some [30]) x) /\
    (forall x, (try v <- get "number_of_running_simulations_to_show" d; as_int v) = Good x <-> value_in [config] "number_of_running_simulations_to_show" int_value (Some 12) x)).
  { intros d L. pose proof L as L'. apply load_found in L'; [|exact mcts_keys].
    split; [|split; [|split; [|split; [|split; [|split; [|split]]]]]]; intros x.
    - apply (settings_of_spec to_num [config] mcts_settings d x L' mcts_nodup). intros z I. unfold mcts_settings. apply in_or_app. right. apply in_or_app. left. exact I.
    - apply (description_spec [config] mcts_settings d x L' mcts_nodup). unfold mcts_settings. apply in_or_app. left. left. reflexivity.
    - apply (get_found config _ d uKO "komi" as_float _ _ _ L mcts_keys mcts_nodup); [cbn; tauto|reflexivity|exact reads_float|reflexivity].
    - apply (get_found config _ d uNG "number_of_games" (as_option as_int) _ _ _ L mcts_keys mcts_nodup); [cbn; tauto|reflexivity|exact (reads_none _ _ _ int_not_none reads_int)|exists None; auto].
    - apply (get_found config _ d uCC "candidate_colour" colour_of _ _ _ L mcts_keys mcts_nodup); [cbn; tauto|reflexivity|exact reads_colour|reflexivity].
    - apply (get_found config _ d uLP "log_tree_to_history_period" (as_option as_int) _ _ _ L mcts_keys mcts_nodup); [cbn; tauto|reflexivity|exact (reads_none _ _ _ positive_not_none reads_positive)|exists None; auto].
    - apply (get_found config _ d uSU "summary_spec" ints_of _ _ _ L mcts_keys mcts_nodup); [cbn; tauto|reflexivity|exact reads_ints|exists [30]; auto].
    - apply (get_found config _ d uSH "number_of_running_simulations_to_show" as_int _ _ _ L mcts_keys mcts_nodup); [cbn; tauto|reflexivity|exact reads_int|exists 12; auto]. }
  assert (T : forall d, load_settings tree_settings config true false = Good d ->
    (forall x, (try v <- get "max_depth" d; as_int v) = Good x <-> value_in [config] "max_depth" positive_value (Some 1) x) /\
    (forall x, (try v <- get "exploration_coefficient" d; as_float v) = Good x <-> value_in [config] "exploration_coefficient" float_value None x) /\
    (forall x, (try v <- get "initial_visits" d; as_int v) = Good x <-> value_in [config] "initial_visits" positive_value None x) /\
    (forall x, (try v <- get "initial_wins" d; as_int v) = Good x <-> value_in [config] "initial_wins" positive_value None x)).
  { intros d L. split; [|split; [|split]]; intros x.
    - apply (get_found config _ d uMD "max_depth" as_int _ _ _ L tree_keys tree_nodup); [cbn; tauto|reflexivity|exact reads_positive|exists 1; auto].
    - apply (get_found config _ d uEX "exploration_coefficient" as_float _ _ _ L tree_keys tree_nodup); [cbn; tauto|reflexivity|exact reads_float|reflexivity].
    - apply (get_found config _ d uIV "initial_visits" as_int _ _ _ L tree_keys tree_nodup); [cbn; tauto|reflexivity|exact reads_positive|reflexivity].
    - apply (get_found config _ d uIW "initial_wins" as_int _ _ _ L tree_keys tree_nodup); [cbn; tauto|reflexivity|exact reads_positive|reflexivity]. }
  split.
  - intros H. apply bind_good in H. destruct H as ([d ps] & C & H). apply (competition_spec en mcts_settings config d ps PP) in C. destruct C as [L PD].
    destruct (G d L) as (G0 & G1 & G2 & G3 & G4 & G5 & G6 & G7).
    apply bind_good in H. destruct H as (ko & KO & H). apply bind_good in H. destruct H as (i & IN & H). destruct i; [discriminate|].
    apply bind_good in H. destruct H as (s & S & H). apply bind_good in H. destruct H as ([] & CH & H).
    apply bind_good in H. destruct H as ([[op pars] mk] & SPE & H). apply bind_good in H. destruct H as (t & LT & H). apply (proj1 (control_good _ _)) in LT.
    destruct (T t LT) as (T1 & T2 & T3 & T4).
    apply bind_good in H. destruct H as (md & MD & H). apply bind_good in H. destruct H as (ex & EX & H). apply bind_good in H. destruct H as (iv & IV & H). apply bind_good in H. destruct H as (iw & IW & H).
    apply bind_good in H. destruct H as (de & DE & H). apply bind_good in H. destruct H as (ng & NG & H). apply bind_good in H. destruct H as (co & CO & H).
    apply bind_good in H. destruct H as (lp & LP & H). apply bind_good in H. destruct H as (su & SU & H). apply bind_good in H. destruct H as (sh & SH & H). injection H as <-.
    cbn [mt_description mt_players mt_settings mt_komi mt_number_of_games mt_colour mt_log_period mt_summary mt_show mt_opponent mt_parameters mt_maker mt_max_depth mt_exploration mt_initial_visits mt_initial_wins].
    apply G0 in S. destruct (described_size _ _ _ S) as [SZ ML]. apply check_handicap_ok in CH; [|exact SZ].
    split; [apply G1; exact DE|]. split; [exact PD|]. split; [exact S|]. split; [split; [exact SZ|split; [exact ML|exact CH]]|].
    split; [apply G2; exact KO|]. split; [apply integral_spec; exact IN|]. split; [apply G3; exact NG|]. split; [apply G4; exact CO|]. split; [apply G5; exact LP|].
    split; [apply G6; exact SU|]. split; [apply G7; exact SH|]. split; [apply SP; exact SPE|].
    split; [apply T1; exact MD|]. split; [apply T2; exact EX|]. split; [apply T3; exact IV|]. apply T4; exact IW.
  - intros (DE & PD & S & (SZ & ML & CH) & KO & IN & NG & CO & LP & SU & SH & SPE & MD & EX & IV & IW).
    assert (L : exists d, load_settings mcts_settings config true false = Good d).
    { assert (F : exists d, all_found [config] mcts_settings d).
      { apply all_found_total. intros x I. unfold mcts_settings in I. apply in_app_or in I. destruct I as [[<-|[]]|I].
        - apply (found_of_value config uDE "description" (as_option as_text) (none_or description_value) (Some None) _ DE); [reflexivity|exact (reads_none _ _ _ stripped_not_none reads_description)|exists None; auto].
        - apply in_app_or in I. destruct I as [I|I]; [exact (game_found _ _ _ S x I)|]. destruct I as [<-|[<-|[<-|[<-|[<-|[]]]]]].
          + apply (found_of_value config uNG "number_of_games" (as_option as_int) _ _ _ NG); [reflexivity|exact (reads_none _ _ _ int_not_none reads_int)|exists None; auto].
          + apply (found_of_value config uCC "candidate_colour" colour_of _ _ _ CO); [reflexivity|exact reads_colour|reflexivity].
          + apply (found_of_value config uLP "log_tree_to_history_period" (as_option as_int) _ _ _ LP); [reflexivity|exact (reads_none _ _ _ positive_not_none reads_positive)|exists None; auto].
          + apply (found_of_value config uSU "summary_spec" ints_of _ _ _ SU); [reflexivity|exact reads_ints|exists [30]; auto].
          + apply (found_of_value config uSH "number_of_running_simulations_to_show" as_int _ _ _ SH); [reflexivity|exact reads_int|exists 12; auto]. }
      destruct F as (d & F). exists d. apply load_found; [exact mcts_keys|exact F]. }
    assert (LT : exists d, load_settings tree_settings config true false = Good d).
    { assert (F : exists d, all_found [config] tree_settings d).
      { apply all_found_total. intros x I. unfold tree_settings in I. destruct I as [<-|[<-|[<-|[<-|[]]]]].
        - apply (found_of_value config uMD "max_depth" as_int _ _ _ MD); [reflexivity|exact reads_positive|exists 1; auto].
        - apply (found_of_value config uEX "exploration_coefficient" as_float _ _ _ EX); [reflexivity|exact reads_float|reflexivity].
        - apply (found_of_value config uIV "initial_visits" as_int _ _ _ IV); [reflexivity|exact reads_positive|reflexivity].
        - apply (found_of_value config uIW "initial_wins" as_int _ _ _ IW); [reflexivity|exact reads_positive|reflexivity]. }
      destruct F as (d & F). exists d. apply load_found; [exact tree_keys|exact F]. }
    destruct L as (d & L). rewrite (proj2 (competition_spec en mcts_settings config d _ PP) (conj L PD)). cbn [sbind].
    destruct (G d L) as (G0 & G1 & G2 & G3 & G4 & G5 & G6 & G7). destruct LT as (t & LT). destruct (T t LT) as (T1 & T2 & T3 & T4).
    rewrite (proj2 (G2 _) KO). cbn [sbind]. rewrite (proj2 (integral_spec _) IN). cbn [sbind].
    rewrite (proj2 (G0 _) S). cbn [sbind]. rewrite (proj2 (check_handicap_ok _ _ _ SZ) CH). cbn [sbind]. rewrite (proj2 (SP _ _ _ _) SPE). cbn [sbind].
    rewrite LT. cbn [control_error sbind].
    rewrite (proj2 (T1 _) MD). cbn [sbind]. rewrite (proj2 (T2 _) EX). cbn [sbind]. rewrite (proj2 (T3 _) IV). cbn [sbind]. rewrite (proj2 (T4 _) IW). cbn [sbind].
    rewrite (proj2 (G1 _) DE). cbn [sbind]. rewrite (proj2 (G3 _) NG). cbn [sbind]. rewrite (proj2 (G4 _) CO). cbn [sbind]. rewrite (proj2 (G5 _) LP). cbn [sbind].
    pose proof (proj2 (G6 _) SU) as SU'. unfold ints_of in SU'. rewrite SU'. cbn [sbind]. rewrite (proj2 (G7 _) SH). cbn [sbind]. destruct c. reflexivity.
Qed.
End Tuners.
