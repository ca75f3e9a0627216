(** Tuners' control files: the errors, and that what's accepted can be used (C55). *)
From Coq Require Import QArith Qround Permutation.
From Verif Require Import Base Bytes PyStr Dict SgfPropsSpec CommonModel GameplayModel TournModel TournSpec TournProofs TournConfProofs
  SettingsModel SettingsSpec SettingsProofs SettingsLoadProofs SettingsConfigProofs SettingsMoreProofs ControlModel ControlSpec ControlProofs ControlPlayerProofs ControlGameProofs ControlMatchupProofs ControlAllProofs ControlErrorProofs ControlTunerProofs ControlTunerSpecProofs.
From Verif Require GtpModel CemModel CemSpec MctsModel MctsSpec.
Open Scope Z_scope.

(** ** Errors *)
Lemma total_colour : total interpret_candidate_colour colour_of.
Proof. intros v y E. apply candidate_colour_ok in E. destruct E as [[_ ->]|[[_ ->]|[_ ->]]]; eexists; reflexivity. Qed.
Lemma total_ints : total (interpret_sequence_of interpret_int) ints_of.
Proof.
  intros v y E. apply sequence_of_ok in E. destruct E as (l & xs & _ & F & ->). unfold ints_of. cbn [list_of].
  induction F as [|x y l xs E F (a & IH)]; [exists []; reflexivity|]. destruct (total_int _ _ E) as (z & Z1). exists (z :: a). cbn [map_s]. rewrite Z1. cbn [sbind]. rewrite IH. reflexivity.
Qed.
Lemma total_values : total (interpret_sequence_of_quiet_configs (str "Parameter") (str "Parameter") false) values_of.
Proof. intros v y E. unfold interpret_sequence_of_quiet_configs in E. apply sequence_of_ok in E. destruct E as (l & xs & _ & _ & ->). exists xs. reflexivity. Qed.
Lemma total_identifier : total interpret_identifier as_text.
Proof. intros v y E. apply identifier_good in E. destruct E as (s & -> & _). exists s. reflexivity. Qed.
Lemma total_callable : total interpret_callable as_fun.
Proof. intros v y E. unfold interpret_callable in E. destruct v; try discriminate. injection E as <-. eexists. reflexivity. Qed.

Lemma settings_total to_num config settings d : all_found [config] settings d -> NoDup (map st_name settings) -> incl game_settings settings -> exists s, settings_of to_num d = Good s.
Proof.
  intros F ND IN. unfold settings_of.
  destruct (found_in _ _ _ (mkSetting (str "board_size") interpret_board_size None) "board_size" as_int None F ND ltac:(apply IN; cbn; tauto) eq_refl total_size eq_refl) as (a1 & E1). rewrite E1. cbn [sbind].
  destruct (found_in _ _ _ (mkSetting (str "komi") interpret_float None) "komi" as_float None F ND ltac:(apply IN; cbn; tauto) eq_refl total_float eq_refl) as (a2 & E2). rewrite E2. cbn [sbind].
  destruct (found_in _ _ _ (mkSetting (str "handicap") (allow_none interpret_int) (Some VNone)) "handicap" (as_option as_int) (Some None) F ND ltac:(apply IN; cbn; tauto) eq_refl (total_none _ _ total_int)
    (ex_intro _ None (conj eq_refl eq_refl))) as (a3 & E3). rewrite E3. cbn [sbind].
  destruct (found_in _ _ _ (mkSetting (str "handicap_style") (interpret_enum [str "fixed"; str "free"]) (Some (VStr (str "fixed")))) "handicap_style" is_free (Some false) F ND ltac:(apply IN; cbn; tauto) eq_refl
    (total_enum _ _) (ex_intro _ false (conj eq_refl eq_refl))) as (a4 & E4). rewrite E4. cbn [sbind].
  destruct (found_in _ _ _ (mkSetting (str "move_limit") interpret_positive_int (Some (VInt 1000))) "move_limit" as_int (Some 1000) F ND ltac:(apply IN; cbn; tauto) eq_refl total_positive
    (ex_intro _ 1000 (conj eq_refl eq_refl))) as (a5 & E5). rewrite E5. cbn [sbind].
  destruct (found_in _ _ _ (mkSetting (str "scorer") (interpret_enum [str "internal"; str "players"]) (Some (VStr (str "players")))) "scorer" as_text (Some (str "players")) F ND ltac:(apply IN; cbn; tauto) eq_refl
    (fun v y E => enum_total _ v y E) (ex_intro _ _ (conj eq_refl eq_refl))) as (a6 & E6). rewrite E6. cbn [sbind].
  destruct (found_in _ _ _ (mkSetting (str "internal_scorer_handicap_compensation") (interpret_enum [str "no"; str "full"; str "short"]) (Some (VStr (str "full")))) "internal_scorer_handicap_compensation"
    as_compensation (Some CompFull) F ND ltac:(apply IN; cbn; tauto) eq_refl (total_compensation _) (ex_intro _ _ (conj eq_refl eq_refl))) as (a7 & E7). rewrite E7. cbn [sbind]. eauto.
Qed.
Lemma handicap_bad h free size e : check_handicap h free size = Bad e -> exists t, e = SControl t.
Proof. unfold check_handicap. destruct (validate_handicap h free size); [discriminate|]. intros E. injection E as <-. eauto. Qed.

Lemma special_refuses : Forall (fun s => refuses_properly (st_interpreter s)) (tuner_special (str "Parameter")).
Proof.
  constructor; [apply identifier_refuses|]. constructor; [apply sequence_of_refuses, quiet_config_refuses|]. constructor; [apply callable_refuses|constructor].
Qed.
Lemma parameters_bad {A} en q (one : list pyval -> list (bytes * pyval) -> sres A) code l : Forall (fun v => exists args kwargs, v = VConfig (str "Parameter") args kwargs) l ->
  forall i seen e, parameters_from_control en q one code i l seen = Bad e -> exists t, e = SControl t.
Proof.
  intros F. induction F as [|v l (args & kwargs & ->) F IH]; intros i seen e; [discriminate|]. cbn [parameters_from_control]. intros H.
  apply bind_bad in H. destruct H as [H|(p & _ & H)]; [exact (any_bad _ _ _ _ H)|]. destruct (bmem _ _); [injection H as <-; eauto|].
  apply bind_bad in H. destruct H as [H|(r & _ & H)]; [exact (IH _ _ _ H)|discriminate].
Qed.
Lemma specials_bad {A} floats en q (one : list pyval -> list (bytes * pyval) -> sres A) code players config e :
  tuner_specials en q one code players config = Bad e -> control_file_error config floats e.
Proof.
  unfold tuner_specials. apply load_control; [apply tame_refuses, special_refuses|]. intros d L H. pose proof L as F. apply load_found in F; [|exact special_keys].
  left. destruct (found_in _ _ _ tOP "opponent" as_text None F special_nodup ltac:(cbn; tauto) eq_refl total_identifier eq_refl) as (op & E1).
  destruct (found_in _ _ _ tPA "parameters" values_of None F special_nodup ltac:(cbn; tauto) eq_refl total_values eq_refl) as (l & E2).
  destruct (found_in _ _ _ tMA "make_candidate" as_fun None F special_nodup ltac:(cbn; tauto) eq_refl total_callable eq_refl) as (mk & E3).
  rewrite E1 in H. cbn [sbind] in H. destruct (negb _); [injection H as <-; eauto|].
  assert (VP : value_in [config] "parameters" configs_value None l) by (apply (get_found config _ d tPA "parameters" values_of _ _ _ L special_keys special_nodup); [cbn; tauto|reflexivity|exact reads_configs|reflexivity|exact E2]).
  apply bind_good in E2. destruct E2 as (v & E2 & LV). rewrite E2 in H. cbn [sbind] in H. unfold values_of in LV. destruct (list_of v) as [l'|]; [|discriminate]. injection LV as ->.
  destruct VP as [(w & _ & _ & FA)|[_ X]]; [|discriminate]. destruct l as [|v0 l0]; [injection H as <-; eauto|].
  apply bind_bad in H. destruct H as [H|(ps & _ & H)]; [exact (parameters_bad _ _ _ _ _ FA _ _ _ H)|]. rewrite E3 in H. discriminate.
Qed.

Lemma cem_tame : tame ["komi"%string; "elite_proportion"%string; "step_size"%string] cem_settings.
Proof.
  apply tame_app; [apply tame_refuses, base_refuses|]. apply tame_app; [apply (tame_more ["komi"%string]); [cbn; tauto|exact game_tame]|]. unfold tame. tame_tac.
Qed.
Lemma mcts_tame : tame ["komi"%string; "exploration_coefficient"%string] mcts_settings.
Proof.
  apply tame_app; [apply tame_refuses, base_refuses|]. apply tame_app; [apply (tame_more ["komi"%string]); [cbn; tauto|exact game_tame]|]. unfold tame. tame_tac.
Qed.
Lemma tree_tame : tame ["komi"%string; "exploration_coefficient"%string] tree_settings.
Proof. unfold tame, tree_settings. tame_tac. Qed.

Lemma description_found config settings d : all_found [config] settings d -> NoDup (map st_name settings) -> In uDE settings -> exists o, description_of d = Good o.
Proof.
  intros F ND I. apply (found_in settings config d uDE "description" (as_option as_text) (Some None) F ND I eq_refl); [|exists None; auto].
  cbn [st_interpreter uDE]. apply total_none. intros v z E. unfold interpret_as_utf8_stripped in E. apply bind_good in E. destruct E as (w & U & E). apply utf8_is_str in U. destruct U as (s & ->). injection E as <-.
  eexists. reflexivity.
Qed.

Section Tuners.
Context {V : Type}.
Variable apply : nat -> pyfloat -> option V.
Variable formats : bytes -> V -> bool.
Variable to_num : pyfloat -> num.

Theorem cem_errors en config e : cem_from_control to_num apply formats en config = Bad e ->
  control_file_error config ["komi"%string; "elite_proportion"%string; "step_size"%string] e.
Proof.
  unfold cem_from_control. apply competition_bad; [exact cem_tame|]. intros [d ps] CO H. pose proof (competition_loaded _ _ _ _ _ CO) as L. apply load_found in L; [|exact cem_keys].
  destruct (settings_total to_num config cem_settings d L cem_nodup) as (s & S). { intros z I. unfold cem_settings. apply in_or_app. right. apply in_or_app. left. exact I. }
  rewrite S in H. cbn [sbind] in H. apply bind_bad in H. destruct H as [H|([] & _ & H)]; [left; exact (handicap_bad _ _ _ _ H)|].
  destruct (found_in _ _ _ uEL "elite_proportion" as_float None L cem_nodup ltac:(cbn; tauto) eq_refl total_float eq_refl) as (el & E1). rewrite E1 in H. cbn [sbind] in H.
  destruct (found_in _ _ _ uST "step_size" as_float None L cem_nodup ltac:(cbn; tauto) eq_refl total_float eq_refl) as (st & E2). rewrite E2 in H. cbn [sbind] in H.
  destruct (negb _); [injection H as <-; left; eauto|]. destruct (negb _); [injection H as <-; left; eauto|].
  apply bind_bad in H. destruct H as [H|([[op pars] mk] & _ & H)]; [exact (specials_bad _ _ _ _ _ _ _ _ H)|]. exfalso.
  destruct (description_found config cem_settings d L cem_nodup ltac:(cbn; tauto)) as (o & D). rewrite D in H. cbn [sbind] in H.
  destruct (found_in _ _ _ uCC "candidate_colour" colour_of None L cem_nodup ltac:(cbn; tauto) eq_refl total_colour eq_refl) as (co & E3). rewrite E3 in H. cbn [sbind] in H.
  destruct (found_in _ _ _ uBA "batch_size" as_int None L cem_nodup ltac:(cbn; tauto) eq_refl total_positive eq_refl) as (ba & E4). rewrite E4 in H. cbn [sbind] in H.
  destruct (found_in _ _ _ uSA "samples_per_generation" as_int None L cem_nodup ltac:(cbn; tauto) eq_refl total_positive eq_refl) as (sa & E5). rewrite E5 in H. cbn [sbind] in H.
  destruct (found_in _ _ _ uGE "number_of_generations" as_int None L cem_nodup ltac:(cbn; tauto) eq_refl total_positive eq_refl) as (ge & E6). rewrite E6 in H. discriminate.
Qed.

Theorem mcts_errors en config e : mcts_from_control to_num apply formats en config = Bad e -> mcts_error config e.
Proof.
  intros H0. unfold mcts_error.
  assert (X : control_file_error config ["komi"%string; "exploration_coefficient"%string] e \/
    exists d ps ko, competition_from_control en mcts_settings config = Good (d, ps) /\ (try v <- get "komi" d; as_float v) = Good ko /\ is_integral ko = Bad e).
  2:{ destruct X as [X|(d & ps & ko & CO & KO & I)]; [left; exact X|right]. pose proof (competition_loaded _ _ _ _ _ CO) as L.
      apply (get_found config _ d uKO "komi" as_float float_value None ko L mcts_keys mcts_nodup) in KO; [|cbn; tauto|reflexivity|exact reads_float|reflexivity].
      destruct ko as [q|n|]; [discriminate|left|right]; injection I as <-; (split; [eauto|eauto]). }
  unfold mcts_from_control in H0.
  destruct (competition_from_control en mcts_settings config) as [[d ps]|e0] eqn:CO.
  2:{ left. apply (competition_bad en _ mcts_settings config (fun _ => @Bad unit e) e mcts_tame).
      - intros r R. congruence.
      - cbn [sbind] in H0. rewrite CO. cbn [sbind]. congruence. }
  cbn [sbind] in H0. pose proof (competition_loaded _ _ _ _ _ CO) as L. apply load_found in L; [|exact mcts_keys].
  destruct (found_in _ _ _ uKO "komi" as_float None L mcts_nodup ltac:(cbn; tauto) eq_refl total_float eq_refl) as (ko & E1). rewrite E1 in H0. cbn [sbind] in H0. apply bind_bad in H0.
  destruct H0 as [H|(i & _ & H)]; [right; exists d, ps, ko; auto|left]. destruct i; [injection H as <-; left; eauto|].
  destruct (settings_total to_num config mcts_settings d L mcts_nodup) as (s & S). { intros z I. unfold mcts_settings. apply in_or_app. right. apply in_or_app. left. exact I. }
  rewrite S in H. cbn [sbind] in H. apply bind_bad in H. destruct H as [H|([] & _ & H)]; [left; exact (handicap_bad _ _ _ _ H)|].
  apply bind_bad in H. destruct H as [H|([[op pars] mk] & _ & H)]; [exact (specials_bad _ _ _ _ _ _ _ _ H)|].
  revert H. apply load_control; [exact tree_tame|]. intros t LT H. apply load_found in LT; [|exact tree_keys]. exfalso.
  destruct (found_in _ _ _ uMD "max_depth" as_int (Some 1) LT tree_nodup ltac:(cbn; tauto) eq_refl total_positive ltac:(exists 1; auto)) as (md & E2). rewrite E2 in H. cbn [sbind] in H.
  destruct (found_in _ _ _ uEX "exploration_coefficient" as_float None LT tree_nodup ltac:(cbn; tauto) eq_refl total_float eq_refl) as (ex & E3). rewrite E3 in H. cbn [sbind] in H.
  destruct (found_in _ _ _ uIV "initial_visits" as_int None LT tree_nodup ltac:(cbn; tauto) eq_refl total_positive eq_refl) as (iv & E4). rewrite E4 in H. cbn [sbind] in H.
  destruct (found_in _ _ _ uIW "initial_wins" as_int None LT tree_nodup ltac:(cbn; tauto) eq_refl total_positive eq_refl) as (iw & E5). rewrite E5 in H. cbn [sbind] in H.
  destruct (description_found config mcts_settings d L mcts_nodup ltac:(cbn; tauto)) as (o & D). rewrite D in H. cbn [sbind] in H.
  destruct (found_in _ _ _ uNG "number_of_games" (as_option as_int) (Some None) L mcts_nodup ltac:(cbn; tauto) eq_refl (total_none _ _ total_int) ltac:(exists None; auto)) as (ng & E6). rewrite E6 in H. cbn [sbind] in H.
  destruct (found_in _ _ _ uCC "candidate_colour" colour_of None L mcts_nodup ltac:(cbn; tauto) eq_refl total_colour eq_refl) as (co & E7). rewrite E7 in H. cbn [sbind] in H.
  destruct (found_in _ _ _ uLP "log_tree_to_history_period" (as_option as_int) (Some None) L mcts_nodup ltac:(cbn; tauto) eq_refl (total_none _ _ total_positive) ltac:(exists None; auto)) as (lp & E8). rewrite E8 in H. cbn [sbind] in H.
  destruct (found_in _ _ _ uSU "summary_spec" ints_of (Some [30]) L mcts_nodup ltac:(cbn; tauto) eq_refl total_ints ltac:(exists [30]; auto)) as (su & E9). unfold ints_of in E9. rewrite E9 in H. cbn [sbind] in H.
  destruct (found_in _ _ _ uSH "number_of_running_simulations_to_show" as_int (Some 12) L mcts_nodup ltac:(cbn; tauto) eq_refl total_int ltac:(exists 12; auto)) as (sh & E10). rewrite E10 in H. discriminate.
Qed.

(** ** Use *)
Variable make : nat -> list V -> option pyval.
Theorem candidate_spec en maker code l p : proper_candidates make maker ->
  make_candidate make en maker code l = Some p <-> candidate_described make en maker code l p.
Proof.
  intros PC. unfold make_candidate, candidate_described. destruct (make maker l) as [v|] eqn:E; [|split; [discriminate|intros (a & k & X & _); discriminate]].
  pose proof (PC l v E) as P. destruct v; try (split; [discriminate|intros (a & k & X & _); discriminate]).
  destruct (bytes_eqb_spec cls (str "Player")) as [->|N].
  - pose proof (fun p => player_spec en code _ args kwargs p P) as PS. destruct (player_from_config en code args kwargs) as [q|e].
    + split.
      * intros X. injection X as <-. exists args, kwargs. split; [reflexivity|]. apply PS. reflexivity.
      * intros (a & k & X & D). assert (a = args) by congruence. assert (k = kwargs) by congruence. subst. apply PS in D. congruence.
    + split; [discriminate|]. intros (a & k & X & D). assert (a = args) by congruence. assert (k = kwargs) by congruence. subst. apply PS in D. discriminate.
  - split; [discriminate|]. intros (a & k & X & D). exfalso. apply N. assert (Y : Some (VConfig cls args kwargs) = Some (VConfig (str "Player") a k)) by exact X. congruence.
Qed.

Lemma dget_in {A} k (d : dict A) : In k (dkeys d) -> exists v, dget k d = Some v.
Proof. intros I. apply dmem_spec in I. unfold dmem in I. destruct (dget k d); [eauto|discriminate]. Qed.
Lemma value_positive config name default z : value_in [config] name positive_value default z -> (forall x, default = Some x -> 0 < x) -> 0 < z.
Proof. intros [(v & _ & _ & P)|[_ E]] D; [exact P|exact (D z E)]. Qed.

Theorem cem_usable en gauss coin config c : proper_players config -> proper_parameters config ->
  cem_from_control to_num apply formats en config = Good c ->
  Forall (fun p => finite_number (cp_mean p) /\ finite_number (cp_variance p)) (ce_parameters c) ->
  (forall p q, In p (ce_parameters c) -> apply (cp_transform p) (FNum q) <> None) ->
  (forall l, exists p, make_candidate make en (ce_maker c) [] l = Some p) ->
  exists cf, cem_config apply make en gauss coin c = Some cf /\ CemSpec.cusable cf.
Proof.
  intros PP PM H FN FT FM. apply (cem_spec apply formats to_num en config c PP PM) in H.
  destruct H as (_ & _ & _ & _ & _ & BA & SA & GE & _ & (el & EE & B1) & _ & (st & ES & B2) & _ & IO & (v & l & _ & _ & NE & F) & _ & _).
  assert (NP : ce_parameters c <> []) by (intros X; rewrite X in F; inversion F; congruence).
  assert (NN : Forall (fun p => not_negative (cp_variance p)) (ce_parameters c)).
  { clear -F. induction F as [|v p l ps P F IH]; constructor; [|exact IH]. destruct P as (? & ? & ? & ? & ? & _ & _ & _ & _ & _ & _ & _ & N & _). exact N. }
  assert (ID : exists init, initial_distribution (ce_parameters c) = Some init /\ List.length init = List.length (ce_parameters c) /\ Forall (fun p => 0 <= snd p)%Q init).
  { clear -FN NN. induction FN as [|p ps [(m & M) (va & VA)] FN IH]; [exists []; auto|]. inversion NN as [|? ? N NN']; subst. destruct (IH NN') as (r & R & LE & FO).
    exists ((m, va) :: r). cbn [initial_distribution]. rewrite M, VA, R. cbn [finite List.length]. split; [reflexivity|]. split; [congruence|]. constructor; [|exact FO]. rewrite VA in N. exact N. }
  destruct ID as (init & ID & LE & FO). destruct (dget_in _ _ IO) as (op & OP). unfold cem_config. rewrite ID, EE, ES, OP. cbn [finite]. eexists. split; [reflexivity|].
  unfold CemSpec.cusable. cbn [CemModel.cc_initial CemModel.cc_transforms CemModel.cc_maker CemModel.cc_batch_size CemModel.cc_samples CemModel.cc_generations CemModel.cc_elite_proportion CemModel.cc_step_size].
  split; [intros ->; destruct (ce_parameters c); [congruence|discriminate]|]. split; [exact FO|]. split; [rewrite map_length; congruence|].
  split. { intros f q I. apply in_map_iff in I. destruct I as (p & <- & I). exact (FT p q I). }
  split. { intros l0 X. destruct (FM l0) as (p & Y). congruence. }
  assert (BA' : 0 < ce_batch_size c) by (apply (value_positive _ _ _ _ BA); discriminate).
  assert (SA' : 0 < ce_samples c) by (apply (value_positive _ _ _ _ SA); discriminate).
  assert (GE' : 0 < ce_generations c) by (apply (value_positive _ _ _ _ GE); discriminate).
  split; [lia|]. split; [lia|]. split; [lia|]. split; [exact B1|exact B2].
Qed.

Theorem mcts_usable en random config c : proper_players config -> proper_parameters config ->
  mcts_from_control to_num apply formats en config = Good c ->
  (forall p q, In p (mt_parameters c) -> apply (mp_scale p) (FNum q) <> None) ->
  (forall l, exists p, make_candidate make en (mt_maker c) [] l = Some p) ->
  exists cf, mcts_config apply make en random c = Some cf /\ MctsSpec.usable cf.
Proof.
  intros PP PM H FT FM. apply (mcts_spec apply formats to_num en config c PP PM) in H.
  destruct H as (_ & _ & _ & _ & _ & _ & _ & _ & _ & _ & _ & (_ & IO & (v & l & _ & _ & NE & F) & _ & _) & MD & _ & IV & IW).
  destruct (dget_in _ _ IO) as (op & OP). unfold mcts_config. rewrite OP. eexists. split; [reflexivity|]. unfold MctsSpec.usable.
  cbn [MctsModel.mc_tree MctsModel.mc_scales MctsModel.mc_maker MctsModel.tp_splits MctsModel.tp_max_depth].
  split. { rewrite Forall_map. clear -F. induction F as [|v p l ps P F IH]; constructor; [|exact IH]. destruct P as (? & ? & ? & ? & ? & _ & _ & _ & _ & SP & _).
    assert (0 < mp_split p) by (apply (value_positive _ _ _ _ SP); discriminate). lia. }
  split. { assert (0 < mt_max_depth c); [|lia]. apply (value_positive _ _ _ _ MD). intros x X. injection X as <-. lia. }
  split. { intros f q I. apply in_map_iff in I. destruct I as (p & <- & I). exact (FT p q I). }
  intros l0 X. destruct (FM l0) as (p & Y). congruence.
Qed.
End Tuners.
