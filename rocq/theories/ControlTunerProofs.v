(** Reading tuners' control files (C55). *)
From Coq Require Import QArith Qround Permutation.
From Verif Require Import Base Bytes PyStr Dict SgfPropsSpec CommonModel GameplayModel TournModel TournSpec TournProofs TournConfProofs
  SettingsModel SettingsSpec SettingsProofs SettingsLoadProofs SettingsConfigProofs SettingsMoreProofs ControlModel ControlSpec ControlProofs ControlPlayerProofs ControlGameProofs ControlMatchupProofs ControlAllProofs ControlErrorProofs.
From Verif Require GtpModel CemModel CemSpec MctsModel MctsSpec.
Open Scope Z_scope.

(** ** Values *)
Lemma forall2_impl {A B} (P Q : A -> B -> Prop) l r : (forall x y, P x y -> Q x y) -> Forall2 P l r -> Forall2 Q l r.
Proof. intros H F. induction F; constructor; auto. Qed.
Lemma reads_colour : reads interpret_candidate_colour colour_of candidate_colour_value.
Proof.
  intros v a. unfold candidate_colour_value. split.
  - intros (y & I & C). apply candidate_colour_ok in I. destruct I as [[H ->]|[[H ->]|[H ->]]]; cbn in C; injection C as <-; auto.
  - intros [[H ->]|[[H ->]|[H ->]]]; [exists (VStr (str "random"))|exists (VStr (str "b"))|exists (VStr (str "w"))]; (split; [apply candidate_colour_ok; auto|reflexivity]).
Qed.
Lemma reads_format : reads interpret_8bit_string (as_option as_text) some_string.
Proof.
  intros v a. unfold some_string. split.
  - intros (y & I & C). apply string_good in I. destruct I as (s & -> & S). cbn in C. injection C as <-. eauto.
  - intros (s & S & ->). exists (VStr s). split; [apply string_good; eauto|reflexivity].
Qed.
Definition ints_of (v : pyval) : sres (list Z) := match list_of v with Some l => map_s as_int l | None => wrong end.
Lemma reads_ints : reads (interpret_sequence_of interpret_int) ints_of ints_value.
Proof.
  intros v a. unfold ints_of, ints_value. split.
  - intros (y & I & C). apply sequence_of_ok in I. destruct I as (l & xs & EL & F & ->). cbn [list_of] in C. apply map_s_good in C. exists l. split; [exact EL|].
    assert (xs = l) as ->. { clear -F. induction F as [|x y l xs E F IH]; [reflexivity|]. apply int_ok in E. destruct E as (-> & _). congruence. }
    eapply forall2_impl; [|exact C]. intros x z E. apply as_int_spec. exact E.
  - intros (l & EL & F). exists (VList l). split.
    + apply sequence_of_ok. exists l, l. split; [exact EL|]. split; [|reflexivity]. clear EL. induction F as [|x z l a E F IH]; constructor; [apply int_ok; eauto|exact IH].
    + cbn [list_of]. apply map_s_good. eapply forall2_impl; [|exact F]. intros x z E. apply as_int_spec. exact E.
Qed.
Lemma negative_spec f : negative f = false <-> not_negative f.
Proof.
  destruct f as [q|n|]; cbn; [|destruct n; split; congruence|split; auto]. destruct (Qle_bool 0 q) eqn:E; cbn; split; intros H; try congruence.
  - apply Qle_bool_iff. exact E.
  - apply Qle_bool_iff in H. congruence.
Qed.
Lemma between_spec f : strictly_between_0_1 f = true <-> between_0_1 f.
Proof.
  unfold between_0_1. destruct f as [q|n|]; cbn; [|split; [discriminate|intros (q & E & _); discriminate]..].
  rewrite Bool.andb_true_iff, !Bool.negb_true_iff. split.
  - intros [A B]. exists q. split; [reflexivity|]. split; apply Qnot_le_lt; intros X; apply Qle_bool_iff in X; congruence.
  - intros (q' & E & A & B). injection E as <-. split; apply Bool.not_true_is_false; intros X; apply Qle_bool_iff in X; apply (Qle_not_lt _ _ X); assumption.
Qed.
Lemma integral_spec f : is_integral f = Good false <-> fractional f.
Proof.
  unfold fractional. destruct f as [q|n|]; cbn; [|split; [discriminate|intros (q & E & _); discriminate]..].
  split.
  - intros E. injection E as E. exists q. split; [reflexivity|]. intros z H. assert (X : Qeq_bool q (inject_Z (Qfloor q)) = true); [|congruence].
    apply Qeq_bool_iff. rewrite H at 1. rewrite (Qfloor_comp _ _ H), Qfloor_Z. reflexivity.
  - intros (q' & E & H). injection E as <-. f_equal. apply Bool.not_true_is_false. intros X. apply Qeq_bool_iff in X. exact (H _ X).
Qed.

(** ** Parameters *)
(** A dict of settings, described by [value_in] and obtained from [load_settings]. *)
Lemma get_found {A} config settings d s name (conv : pyval -> sres A) R default a : load_settings settings config true false = Good d -> never_keys settings -> NoDup (map st_name settings) ->
  In s settings -> st_name s = str name -> reads (st_interpreter s) conv R -> converts conv (st_default s) default ->
  (try v <- get name d; conv v) = Good a <-> value_in [config] name R default a.
Proof. intros L NK ND I N RD CV. apply load_found in L; [|exact NK]. exact (get_value [config] settings d s name conv R default a L ND I N RD CV). Qed.
Lemma found_of_value {A} config s name (conv : pyval -> sres A) R default a : value_in [config] name R default a ->
  st_name s = str name -> reads (st_interpreter s) conv R -> converts conv (st_default s) default -> exists y, found [config] s y.
Proof. intros H N RD CV. apply (found_bridge [config] s name conv R default a N RD CV) in H. destruct H as (y & F & _). eauto. Qed.

Definition qCO := mkSetting (str "code") interpret_identifier None.
Definition qME := mkSetting (str "initial_mean") interpret_float None.
Definition qVA := mkSetting (str "initial_variance") interpret_float None.
Definition qTR := mkSetting (str "transform") interpret_callable (Some (VFun 0)).
Definition qFO := mkSetting (str "format") interpret_8bit_string (Some VNone).
Definition qSC := mkSetting (str "scale") interpret_callable None.
Definition qSP := mkSetting (str "split") interpret_positive_int None.
Lemma cem_parameter_keys : never_keys cem_parameter_settings.
Proof.
  unfold never_keys, cem_parameter_settings. repeat constructor; cbn [st_interpreter]; [apply identifier_never_key|apply float_never_key|apply float_never_key|apply callable_never_key|apply string_never_key].
Qed.
Lemma cem_parameter_nodup : NoDup (map st_name cem_parameter_settings).
Proof. apply nodup_names. vm_compute. reflexivity. Qed.
Lemma mcts_parameter_keys : never_keys mcts_parameter_settings.
Proof.
  unfold never_keys, mcts_parameter_settings. repeat constructor; cbn [st_interpreter]; [apply identifier_never_key|apply callable_never_key|apply positive_never_key|apply string_never_key].
Qed.
Lemma mcts_parameter_nodup : NoDup (map st_name mcts_parameter_settings).
Proof. apply nodup_names. vm_compute. reflexivity. Qed.

Section Tuners.
Context {V : Type}.
Variable apply : nat -> pyfloat -> option V.
Variable formats : bytes -> V -> bool.
Variable to_num : pyfloat -> num.

Lemma value_ext {A} d d' name (R : pyval -> A -> Prop) default x : (forall n, dget n d = dget n d') -> value_in [d] name R default x -> value_in [d'] name R default x.
Proof. intros E. apply value_in_ext. intros n. symmetry. apply E. Qed.

Lemma cem_parameter_spec args kwargs p : NoDup (map fst kwargs) ->
  cem_parameter_from_control apply formats args kwargs = Good p <-> cem_parameter_described apply formats (VConfig (str "Parameter") args kwargs) p.
Proof.
  intros NK. assert (NP : NoDup (qc_positional cem_parameter_class)) by (cbn; repeat constructor; intros []). unfold cem_parameter_from_control, cem_parameter_described.
  assert (G : forall a d, load_settings cem_parameter_settings a true false = Good d ->
    (forall x, (try v <- get "code" d; as_text v) = Good x <-> value_in [a] "code" identifier_value None x) /\
    (forall x, (try v <- get "initial_mean" d; as_float v) = Good x <-> value_in [a] "initial_mean" float_value None x) /\
    (forall x, (try v <- get "initial_variance" d; as_float v) = Good x <-> value_in [a] "initial_variance" float_value None x) /\
    (forall x, (try v <- get "transform" d; as_fun v) = Good x <-> value_in [a] "transform" callable_value (Some 0%nat) x) /\
    (forall x, (try v <- get "format" d; as_option as_text v) = Good x <-> value_in [a] "format" some_string (Some None) x)).
  { intros a d L. split; [|split; [|split; [|split]]]; intros x.
    - apply (get_found a _ d qCO "code" as_text _ _ _ L cem_parameter_keys cem_parameter_nodup); [cbn; tauto|reflexivity|exact reads_identifier|reflexivity].
    - apply (get_found a _ d qME "initial_mean" as_float _ _ _ L cem_parameter_keys cem_parameter_nodup); [cbn; tauto|reflexivity|exact reads_float|reflexivity].
    - apply (get_found a _ d qVA "initial_variance" as_float _ _ _ L cem_parameter_keys cem_parameter_nodup); [cbn; tauto|reflexivity|exact reads_float|reflexivity].
    - apply (get_found a _ d qTR "transform" as_fun _ _ _ L cem_parameter_keys cem_parameter_nodup); [cbn; tauto|reflexivity|exact reads_callable|exists 0%nat; auto].
    - apply (get_found a _ d qFO "format" (as_option as_text) _ _ _ L cem_parameter_keys cem_parameter_nodup); [cbn; tauto|reflexivity|exact reads_format|exists None; auto]. }
  split.
  - intros H. apply bind_good in H. destruct H as (a & R & H). pose proof (arguments_resolve _ _ _ NP NK a R) as AR. apply bind_good in H. destruct H as (d & L & H).
    destruct (G a d L) as (G1 & G2 & G3 & G4 & G5).
    apply bind_good in H. destruct H as (code & H1 & H). apply bind_good in H. destruct H as (mean & H2 & H). apply bind_good in H. destruct H as (var & H3 & H).
    apply bind_good in H. destruct H as (tr & H4 & H). apply bind_good in H. destruct H as (fo & H5 & H).
    destruct (negative var) eqn:NV; [discriminate|]. destruct (apply tr mean) as [x|] eqn:AP; [|discriminate]. destruct (formats (default_format code fo) x) eqn:FM; [|discriminate].
    injection H as <-. exists args, kwargs, a, fo, x. cbn [cp_code cp_mean cp_variance cp_transform cp_format].
    split; [reflexivity|]. split; [exact AR|]. split; [apply G1; exact H1|]. split; [apply G2; exact H2|]. split; [apply G3; exact H3|]. split; [apply G4; exact H4|]. split; [apply G5; exact H5|].
    split; [apply negative_spec; exact NV|]. split; [exact AP|]. split; [destruct fo; reflexivity|exact FM].
  - intros (a' & k' & d0 & o & x & E & AR0 & H1 & H2 & H3 & H4 & H5 & NV & AP & FE & FM). assert (a' = args) by congruence. assert (k' = kwargs) by congruence. subst a' k'.
    destruct (resolve_arguments_ok _ _ _ _ NP NK AR0) as (a & R & AR & EX). rewrite R. cbn [sbind].
    apply (value_ext d0 a _ _ _ _ EX) in H1, H2, H3, H4, H5.
    assert (L : exists d, load_settings cem_parameter_settings a true false = Good d).
    { assert (F : exists d, all_found [a] cem_parameter_settings d).
      { apply all_found_total. intros s I. cbn [In cem_parameter_settings] in I. destruct I as [<-|[<-|[<-|[<-|[<-|[]]]]]].
        - apply (found_of_value a qCO "code" as_text _ _ _ H1); [reflexivity|exact reads_identifier|reflexivity].
        - apply (found_of_value a qME "initial_mean" as_float _ _ _ H2); [reflexivity|exact reads_float|reflexivity].
        - apply (found_of_value a qVA "initial_variance" as_float _ _ _ H3); [reflexivity|exact reads_float|reflexivity].
        - apply (found_of_value a qTR "transform" as_fun _ _ _ H4); [reflexivity|exact reads_callable|exists 0%nat; auto].
        - apply (found_of_value a qFO "format" (as_option as_text) _ _ _ H5); [reflexivity|exact reads_format|exists None; auto]. }
      destruct F as (d & F). exists d. apply load_found; [exact cem_parameter_keys|exact F]. }
    destruct L as (d & L). rewrite L. cbn [sbind]. destruct (G a d L) as (G1 & G2 & G3 & G4 & G5).
    rewrite (proj2 (G1 _) H1). cbn [sbind]. rewrite (proj2 (G2 _) H2). cbn [sbind]. rewrite (proj2 (G3 _) H3). cbn [sbind]. rewrite (proj2 (G4 _) H4). cbn [sbind]. rewrite (proj2 (G5 _) H5). cbn [sbind].
    rewrite (proj2 (negative_spec _) NV). rewrite AP. destruct p as [code mean var tr fo]. cbn [cp_code cp_mean cp_variance cp_transform cp_format] in *.
    replace (default_format code o) with fo by (rewrite FE; destruct o; reflexivity). rewrite FM. reflexivity.
Qed.

Lemma mcts_parameter_spec args kwargs p : NoDup (map fst kwargs) ->
  mcts_parameter_from_control apply formats args kwargs = Good p <-> mcts_parameter_described apply formats (VConfig (str "Parameter") args kwargs) p.
Proof.
  intros NK. assert (NP : NoDup (qc_positional mcts_parameter_class)) by (cbn; repeat constructor; intros []). unfold mcts_parameter_from_control, mcts_parameter_described.
  assert (G : forall a d, load_settings mcts_parameter_settings a true false = Good d ->
    (forall x, (try v <- get "code" d; as_text v) = Good x <-> value_in [a] "code" identifier_value None x) /\
    (forall x, (try v <- get "scale" d; as_fun v) = Good x <-> value_in [a] "scale" callable_value None x) /\
    (forall x, (try v <- get "split" d; as_int v) = Good x <-> value_in [a] "split" positive_value None x) /\
    (forall x, (try v <- get "format" d; as_option as_text v) = Good x <-> value_in [a] "format" some_string (Some None) x)).
  { intros a d L. split; [|split; [|split]]; intros x.
    - apply (get_found a _ d qCO "code" as_text _ _ _ L mcts_parameter_keys mcts_parameter_nodup); [cbn; tauto|reflexivity|exact reads_identifier|reflexivity].
    - apply (get_found a _ d qSC "scale" as_fun _ _ _ L mcts_parameter_keys mcts_parameter_nodup); [cbn; tauto|reflexivity|exact reads_callable|reflexivity].
    - apply (get_found a _ d qSP "split" as_int _ _ _ L mcts_parameter_keys mcts_parameter_nodup); [cbn; tauto|reflexivity|exact reads_positive|reflexivity].
    - apply (get_found a _ d qFO "format" (as_option as_text) _ _ _ L mcts_parameter_keys mcts_parameter_nodup); [cbn; tauto|reflexivity|exact reads_format|exists None; auto]. }
  split.
  - intros H. apply bind_good in H. destruct H as (a & R & H). pose proof (arguments_resolve _ _ _ NP NK a R) as AR. apply bind_good in H. destruct H as (d & L & H).
    destruct (G a d L) as (G1 & G2 & G3 & G4).
    apply bind_good in H. destruct H as (code & H1 & H). apply bind_good in H. destruct H as (sc & H2 & H). apply bind_good in H. destruct H as (sp & H3 & H).
    apply bind_good in H. destruct H as (fo & H5 & H).
    destruct (apply sc _) as [x|] eqn:AP; [|discriminate]. destruct (formats (default_format code fo) x) eqn:FM; [|discriminate].
    injection H as <-. exists args, kwargs, a, fo, x. cbn [mp_code mp_scale mp_split mp_format].
    split; [reflexivity|]. split; [exact AR|]. split; [apply G1; exact H1|]. split; [apply G2; exact H2|]. split; [apply G3; exact H3|]. split; [apply G4; exact H5|].
    split; [exact AP|]. split; [destruct fo; reflexivity|exact FM].
  - intros (a' & k' & d0 & o & x & E & AR0 & H1 & H2 & H3 & H5 & AP & FE & FM). assert (a' = args) by congruence. assert (k' = kwargs) by congruence. subst a' k'.
    destruct (resolve_arguments_ok _ _ _ _ NP NK AR0) as (a & R & AR & EX). rewrite R. cbn [sbind].
    apply (value_ext d0 a _ _ _ _ EX) in H1, H2, H3, H5.
    assert (L : exists d, load_settings mcts_parameter_settings a true false = Good d).
    { assert (F : exists d, all_found [a] mcts_parameter_settings d).
      { apply all_found_total. intros s I. cbn [In mcts_parameter_settings] in I. destruct I as [<-|[<-|[<-|[<-|[]]]]].
        - apply (found_of_value a qCO "code" as_text _ _ _ H1); [reflexivity|exact reads_identifier|reflexivity].
        - apply (found_of_value a qSC "scale" as_fun _ _ _ H2); [reflexivity|exact reads_callable|reflexivity].
        - apply (found_of_value a qSP "split" as_int _ _ _ H3); [reflexivity|exact reads_positive|reflexivity].
        - apply (found_of_value a qFO "format" (as_option as_text) _ _ _ H5); [reflexivity|exact reads_format|exists None; auto]. }
      destruct F as (d & F). exists d. apply load_found; [exact mcts_parameter_keys|exact F]. }
    destruct L as (d & L). rewrite L. cbn [sbind]. destruct (G a d L) as (G1 & G2 & G3 & G4).
    rewrite (proj2 (G1 _) H1). cbn [sbind]. rewrite (proj2 (G2 _) H2). cbn [sbind]. rewrite (proj2 (G3 _) H3). cbn [sbind]. rewrite (proj2 (G4 _) H5). cbn [sbind].
    rewrite AP. destruct p as [code sc sp fo]. cbn [mp_code mp_scale mp_split mp_format] in *.
    replace (default_format code o) with fo by (rewrite FE; destruct o; reflexivity). rewrite FM. reflexivity.
Qed.

End Tuners.

(** ** What tuners have in common *)
Lemma parameters_spec {A} en q (one : list pyval -> list (bytes * pyval) -> sres A) (R : pyval -> A -> Prop) code l :
  Forall (fun v => exists args kwargs, v = VConfig (str "Parameter") args kwargs /\ forall p, one args kwargs = Good p <-> R v p) l ->
  forall i seen ps, parameters_from_control en q one code i l seen = Good ps <->
    Forall2 R l ps /\ NoDup (map code ps) /\ (forall c, In c (map code ps) -> ~ In c seen).
Proof.
  intros FA. induction FA as [|v l (args & kwargs & -> & H) FA IH]; intros i seen ps; cbn [parameters_from_control].
  - split; [intros E; injection E as <-; split; [constructor|split; [constructor|intros c []]]|]. intros [F _]. inversion F. reflexivity.
  - rewrite bind_good. split.
    + intros (p & P & X). apply any_good in P. apply H in P. destruct (bmem_spec (code p) seen) as [|NI]; [discriminate|]. apply bind_good in X. destruct X as (r & X & E). injection E as <-.
      apply IH in X. destruct X as (F & ND & NS). split; [constructor; assumption|]. cbn [map]. split; [constructor; [intros I; apply (NS _ I); left; reflexivity|exact ND]|].
      intros c [<-|I]; [exact NI|intros J; apply (NS _ I); right; exact J].
    + intros (F & ND & NS). inversion F as [|? p ? ps' P F']; subst. exists p. split; [apply any_good; apply H; exact P|]. cbn [map] in *. inversion ND as [|? ? N ND']; subst.
      destruct (bmem_spec (code p) seen) as [I|NI]; [exfalso; apply (NS (code p)); [left; reflexivity|exact I]|]. apply bind_good. exists ps'. split; [|reflexivity].
      apply IH. split; [exact F'|]. split; [exact ND'|]. intros c I [<-|J]; [contradiction|apply (NS c); [right; exact I|exact J]].
Qed.

Definition tOP := mkSetting (str "opponent") interpret_identifier None.
Definition tPA := mkSetting (str "parameters") (interpret_sequence_of_quiet_configs (str "Parameter") (str "Parameter") false) None.
Definition tMA := mkSetting (str "make_candidate") interpret_callable None.
Lemma special_keys : never_keys (tuner_special (str "Parameter")).
Proof.
  unfold never_keys, tuner_special. repeat constructor; cbn [st_interpreter]; [apply identifier_never_key|apply sequence_of_never_key, quiet_config_never_key|apply callable_never_key].
Qed.
Lemma special_nodup : NoDup (map st_name (tuner_special (str "Parameter"))).
Proof. apply nodup_names. vm_compute. reflexivity. Qed.
Definition configs_value (v : pyval) (l : list pyval) : Prop := elements v l /\ Forall (fun v => exists args kwargs, v = VConfig (str "Parameter") args kwargs) l.
Definition values_of (v : pyval) : sres (list pyval) := match list_of v with Some l => Good l | None => wrong end.
Lemma quiet_parameter v y : interpret_quiet_config (str "Parameter") (str "Parameter") false v = Good y <-> y = v /\ exists args kwargs, v = VConfig (str "Parameter") args kwargs.
Proof.
  unfold interpret_quiet_config. destruct v; try (split; [discriminate|intros (_ & a & k & E); discriminate]).
  destruct (bytes_eqb_spec cls (str "Parameter")) as [->|N].
  - split; [intros E; injection E as <-; eauto|intros [-> _]; reflexivity].
  - split; [discriminate|]. intros (_ & a & k & E). assert (X : cls = str "Parameter") by congruence. contradiction.
Qed.
Lemma reads_configs : reads (interpret_sequence_of_quiet_configs (str "Parameter") (str "Parameter") false) values_of configs_value.
Proof.
  intros v a. unfold interpret_sequence_of_quiet_configs, values_of, configs_value. split.
  - intros (y & I & C). apply sequence_of_ok in I. destruct I as (l & xs & EL & F & ->). cbn [list_of] in C. injection C as ->.
    assert (X : a = l /\ Forall (fun v => exists args kwargs, v = VConfig (str "Parameter") args kwargs) l).
    { clear EL. induction F as [|x y l a E F IH]; [split; constructor|]. destruct IH as [-> FA]. apply quiet_parameter in E. destruct E as [-> Q]. split; [reflexivity|constructor; assumption]. }
    destruct X as [-> FA]. auto.
  - intros [EL FA]. exists (VList a). split; [|reflexivity]. apply sequence_of_ok. exists a, a. split; [exact EL|]. split; [|reflexivity].
    clear EL. induction FA as [|x l Q FA IH]; constructor; [apply quiet_parameter; auto|exact IH].
Qed.

Lemma specials_spec {A} en q (one : list pyval -> list (bytes * pyval) -> sres A) (R : pyval -> A -> Prop) code players config opponent ps maker :
  (forall args kwargs p, NoDup (map fst kwargs) -> one args kwargs = Good p <-> R (VConfig (str "Parameter") args kwargs) p) ->
  (forall v p, R v p -> exists args kwargs, v = VConfig (str "Parameter") args kwargs) -> proper_parameters config ->
  tuner_specials en q one code players config = Good (opponent, ps, maker) <-> tuner_described R code config players opponent ps maker.
Proof.
  intros ONE RS PM. unfold tuner_specials, tuner_described.
  assert (G : forall d, load_settings (tuner_special (str "Parameter")) config true false = Good d ->
    (forall x, (try v <- get "opponent" d; as_text v) = Good x <-> value_in [config] "opponent" identifier_value None x) /\
    (forall x, (try v <- get "parameters" d; values_of v) = Good x <-> value_in [config] "parameters" configs_value None x) /\
    (forall x, (try v <- get "make_candidate" d; as_fun v) = Good x <-> value_in [config] "make_candidate" callable_value None x)).
  { intros d L. split; [|split]; intros x.
    - apply (get_found config _ d tOP "opponent" as_text _ _ _ L special_keys special_nodup); [cbn; tauto|reflexivity|exact reads_identifier|reflexivity].
    - apply (get_found config _ d tPA "parameters" values_of _ _ _ L special_keys special_nodup); [cbn; tauto|reflexivity|exact reads_configs|reflexivity].
    - apply (get_found config _ d tMA "make_candidate" as_fun _ _ _ L special_keys special_nodup); [cbn; tauto|reflexivity|exact reads_callable|reflexivity]. }
  assert (FF : forall v l, given config (str "parameters") v -> elements v l -> Forall (fun v => exists args kwargs, v = VConfig (str "Parameter") args kwargs) l ->
     Forall (fun v => exists args kwargs, v = VConfig (str "Parameter") args kwargs /\ forall p, one args kwargs = Good p <-> R v p) l).
  { intros v l GV EL FA. pose proof (PM v l GV EL) as PC. rewrite Forall_forall in *. intros x I. destruct (FA x I) as (args & kwargs & ->). exists args, kwargs. split; [reflexivity|].
    intros p. apply ONE. exact (proj1 (PC _ I _ _ _ eq_refl)). }
  split.
  - intros H. apply bind_good in H. destruct H as (d & L & H). apply (proj1 (control_good _ _)) in L. destruct (G d L) as (G1 & G2 & G3). apply bind_good in H. destruct H as (op & H1 & H).
    destruct (negb (dmem op players)) eqn:DM; [discriminate|]. apply Bool.negb_false_iff in DM. apply dmem_spec in DM. apply bind_good in H. destruct H as (v & H2 & H).
    destruct (list_of v) as [l|] eqn:LV; [|discriminate]. assert (NE : l <> []) by (intros ->; discriminate).
    assert (H' : (try ps <- parameters_from_control en q one code 0 l []; try maker <- (try v <- get "make_candidate" d; as_fun v); Good (op, ps, maker)) = Good (opponent, ps, maker)).
    { destruct l; [congruence|exact H]. }
    clear H. apply bind_good in H'. destruct H' as (ps' & H3 & H). apply bind_good in H. destruct H as (mk & H4 & H). injection H as <- <- <-.
    assert (VP : value_in [config] "parameters" configs_value None l). { apply G2. rewrite H2. cbn [sbind]. unfold values_of. rewrite LV. reflexivity. }
    destruct VP as [(w & GW & EW & FA)|[_ X]]; [|discriminate]. apply (parameters_spec en q one R code l (FF w l GW EW FA)) in H3. destruct H3 as (F & ND & _).
    split; [apply G1; exact H1|]. split; [exact DM|]. split; [exists w, l; auto|]. split; [exact ND|]. apply G3. exact H4.
  - intros (H1 & IO & (w & l & GW & EW & NE & F) & ND & H4).
    assert (FA : Forall (fun v => exists args kwargs, v = VConfig (str "Parameter") args kwargs) l).
    { clear -RS F. induction F as [|v p l ps P F IH]; constructor; [exact (RS _ _ P)|exact IH]. }
    assert (H2 : value_in [config] "parameters" configs_value None l) by (left; exists w; split; [exact GW|split; assumption]).
    assert (L : exists d, load_settings (tuner_special (str "Parameter")) config true false = Good d).
    { assert (AF : exists d, all_found [config] (tuner_special (str "Parameter")) d).
      { apply all_found_total. intros s I. cbn [In tuner_special] in I. destruct I as [<-|[<-|[<-|[]]]].
        - apply (found_of_value config tOP "opponent" as_text _ _ _ H1); [reflexivity|exact reads_identifier|reflexivity].
        - apply (found_of_value config tPA "parameters" values_of _ _ _ H2); [reflexivity|exact reads_configs|reflexivity].
        - apply (found_of_value config tMA "make_candidate" as_fun _ _ _ H4); [reflexivity|exact reads_callable|reflexivity]. }
      destruct AF as (d & AF). exists d. apply load_found; [exact special_keys|exact AF]. }
    destruct L as (d & L). rewrite L. cbn [control_error sbind]. destruct (G d L) as (G1 & G2 & G3). rewrite (proj2 (G1 _) H1). cbn [sbind].
    rewrite (proj2 (dmem_spec opponent players) IO). cbn [negb]. apply G2 in H2. apply bind_good in H2. destruct H2 as (v & H2 & LV). rewrite H2. cbn [sbind].
    unfold values_of in LV. destruct (list_of v) as [l'|]; [|discriminate]. injection LV as ->. destruct l as [|v0 l0]; [congruence|].
    rewrite (proj2 (parameters_spec en q one R code (v0 :: l0) (FF w _ GW EW FA) 0 [] ps)); [|split; [exact F|split; [exact ND|intros c _ []]]]. cbn [sbind].
    rewrite (proj2 (G3 _) H4). reflexivity.
Qed.
