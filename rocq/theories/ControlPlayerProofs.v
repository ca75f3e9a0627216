(** Reading players (C52). *)
From Coq Require Import QArith.
From Verif Require Import Base Bytes PyStr Dict SgfPropsSpec CommonModel GameplayModel TournModel
  SettingsModel SettingsSpec SettingsProofs SettingsLoadProofs SettingsConfigProofs SettingsMoreProofs ControlModel ControlSpec ControlProofs.
From Verif Require GtpModel.
Open Scope Z_scope.

Lemma given_ext d d' name v : (forall n, dget n d = dget n d') -> given d name v <-> given d' name v.
Proof. intros E. unfold given. rewrite (E name). reflexivity. Qed.
Lemma value_in_ext {A} d d' name (R : pyval -> A -> Prop) default x : (forall n, dget n d = dget n d') ->
  value_in [d] name R default x <-> value_in [d'] name R default x.
Proof.
  intros E. cbn [value_in]. rewrite (E (str name)). split; intros [(v & G & H)|H]; auto; left; exists v; (split; [apply (given_ext d d'); auto|exact H]).
Qed.
Lemma value_in_R {A} d name (R R' : pyval -> A -> Prop) default x : (forall v a, R v a <-> R' v a) -> value_in [d] name R default x <-> value_in [d] name R' default x.
Proof. intros E. cbn [value_in]. split; intros [(v & G & H)|H]; auto; left; exists v; (split; [exact G|apply E; exact H]). Qed.

Lemma arguments_fun q args kwargs d d' : arguments_are q args kwargs d -> arguments_are q args kwargs d' -> forall n, dget n d = dget n d'.
Proof.
  intros [_ A] [_ B] n. destruct (dget n d) as [v|] eqn:E; destruct (dget n d') as [w|] eqn:F; try reflexivity.
  - apply A, B in E. congruence.
  - apply A, B in E. congruence.
  - apply B, A in F. congruence.
Qed.
Lemma arguments_resolve q args kwargs : NoDup (qc_positional q) -> NoDup (map fst kwargs) ->
  forall d, resolve_arguments q args kwargs = Good d -> arguments_are q args kwargs d.
Proof. intros NP NK d E. destruct (proj1 (resolve_spec q args kwargs NP NK) d E) as (A & _ & B). split; assumption. Qed.
Lemma resolve_arguments_ok q args kwargs d : NoDup (qc_positional q) -> NoDup (map fst kwargs) -> arguments_are q args kwargs d ->
  exists d', resolve_arguments q args kwargs = Good d' /\ arguments_are q args kwargs d' /\ forall n, dget n d = dget n d'.
Proof.
  intros NP NK A. destruct (proj2 (resolve_spec q args kwargs NP NK) (proj1 A)) as (d' & E). exists d'. split; [exact E|].
  pose proof (arguments_resolve q args kwargs NP NK d' E) as B. split; [exact B|]. exact (arguments_fun _ _ _ _ _ A B).
Qed.
Lemma proper_given cls q args kwargs d name v : proper_call (VConfig cls args kwargs) -> arguments_are q args kwargs d ->
  given d name v -> proper_dict v.
Proof.
  intros P [_ A] (w & E & G). apply A in E. destruct (P cls args kwargs eq_refl) as [_ P2].
  assert (I : In w args \/ In w (map snd kwargs)).
  { destruct E as [(i & _ & N)|I]; [left; eapply nth_error_In; exact N|right; apply in_map_iff; exists (name, w); auto]. }
  destruct (P2 w I) as [P3 P4]. destruct G as [[-> _]|(c & ->)]; [exact P3|exact (P4 c v eq_refl)].
Qed.

Lemma player_settings_keys en : never_keys (player_settings en).
Proof.
  unfold never_keys, player_settings. repeat constructor; cbn [st_interpreter].
  - apply shlex_never_key.
  - apply allow_none_never_key, string_never_key.
  - apply allow_none_never_key, map_of_never_key; apply string_never_key.
  - apply bool_never_key.
  - apply bool_never_key.
  - apply allow_none_never_key, map_of_never_key; apply string_never_key.
  - apply allow_none_never_key, sequence_never_key.
  - apply bool_never_key.
  - apply bool_never_key.
Qed.
Lemma map_not_none key value v : interpret_map_of key value v <> Good VNone.
Proof. unfold interpret_map_of. destruct (interpret_map_items key value v); discriminate. Qed.

Lemma cwd_alike en v : (try o <- as_option as_text v; match o with None => Good None | Some p => try q <- resolve_pathname en p; Good (Some q) end)
  = as_option (path_of en) v.
Proof.
  destruct v; try reflexivity; unfold path_of, as_option; destruct (as_text _) as [t|]; cbn [sbind]; try reflexivity; destruct (resolve_pathname en t); reflexivity.
Qed.

(** All the settings of a list that are read one by one. *)
Theorem player_spec en code cls args kwargs p : proper_call (VConfig cls args kwargs) ->
  player_from_config en code args kwargs = Good p <-> player_described en code args kwargs p.
Proof.
  intros PC. destruct (PC cls args kwargs eq_refl) as [NK _].
  assert (NP : NoDup (qc_positional (player_class en))) by (cbn; repeat constructor; intros []).
  assert (W : forall d, arguments_are (player_class en) args kwargs d ->
    (exists config, load_settings (player_settings en) d true false = Good config /\
       (try cmd_args <- any_error en (str "'command': ") (try v <- get "command" config; command_of en v);
        try cwd <- any_error en (str "'cwd': ") (try v <- get "cwd" config; as_option (path_of en) v);
        try environ <- (try v <- get "environ" config; as_option strings_in v);
        try reliable <- (try v <- get "is_reliable_scorer" config; as_bool v);
        try claim <- (try v <- get "allow_claim" config; as_bool v);
        try discard <- (try v <- get "discard_stderr" config; as_bool v);
        try sgf_name <- (try v <- get "sgf_player_name_from_gtp" config; as_bool v);
        try startup <- value_control (str "'startup_gtp_commands': ") (try v <- get "startup_gtp_commands" config; startup_of en v);
        try aliases <- value_control (str "'gtp_aliases': ") (try v <- get "gtp_aliases" config; aliases_of v);
        Good (mkPlayer code cmd_args cwd environ reliable claim discard sgf_name startup aliases)) = Good p) <->
    (p_code p = code /\
     (exists y, loaded d (mkSetting (str "command") (interpret_shlex_sequence (en_shlex en)) None) y /\ command_of en y = Good (p_cmd_args p)) /\
     (exists y, loaded d (mkSetting (str "cwd") (allow_none interpret_8bit_string) (Some VNone)) y /\ as_option (path_of en) y = Good (p_cwd p)) /\
     (exists y, loaded d (mkSetting (str "environ") (allow_none map_of_strings) (Some VNone)) y /\ as_option strings_in y = Good (p_environ p)) /\
     (exists y, loaded d (mkSetting (str "is_reliable_scorer") interpret_bool (Some (VBool true))) y /\ as_bool y = Good (p_reliable p)) /\
     (exists y, loaded d (mkSetting (str "allow_claim") interpret_bool (Some (VBool false))) y /\ as_bool y = Good (p_claim p)) /\
     (exists y, loaded d (mkSetting (str "discard_stderr") interpret_bool (Some (VBool false))) y /\ as_bool y = Good (p_discard p)) /\
     (exists y, loaded d (mkSetting (str "sgf_player_name_from_gtp") interpret_bool (Some (VBool true))) y /\ as_bool y = Good (p_sgf_name p)) /\
     (exists y, loaded d (mkSetting (str "startup_gtp_commands") (allow_none interpret_sequence) (Some (VList []))) y /\ startup_of en y = Good (p_startup p)) /\
     (exists y, loaded d (mkSetting (str "gtp_aliases") (allow_none map_of_strings) (Some (VDict []))) y /\ aliases_of y = Good (p_aliases p)))).
  { intros d _. split.
    - intros (config & L & H). apply load_good in L; [|apply player_settings_keys]. unfold player_settings in L.
      apply loaded_cons in L. destruct L as (x1 & d1 & E1 & L1 & L).
      apply loaded_cons in L. destruct L as (x2 & d2 & E2 & L2 & L).
      apply loaded_cons in L. destruct L as (x3 & d3 & E3 & L3 & L).
      apply loaded_cons in L. destruct L as (x4 & d4 & E4 & L4 & L).
      apply loaded_cons in L. destruct L as (x5 & d5 & E5 & L5 & L).
      apply loaded_cons in L. destruct L as (x6 & d6 & E6 & L6 & L).
      apply loaded_cons in L. destruct L as (x7 & d7 & E7 & L7 & L).
      apply loaded_cons in L. destruct L as (x8 & d8 & E8 & L8 & L).
      apply loaded_cons in L. destruct L as (x9 & d9 & E9 & L9 & L).
      apply loaded_nil in L. cbn [st_name] in *. rewrite L in E9. rewrite E9 in E8. rewrite E8 in E7. rewrite E7 in E6. rewrite E6 in E5. rewrite E5 in E4. rewrite E4 in E3. rewrite E3 in E2. rewrite E2 in E1. rewrite E1 in H.
      set (cf := [(str "command", x1); (str "cwd", x2); (str "environ", x3); (str "is_reliable_scorer", x4); (str "allow_claim", x5);
                  (str "gtp_aliases", x6); (str "startup_gtp_commands", x7); (str "discard_stderr", x8); (str "sgf_player_name_from_gtp", x9)]) in H.
      assert (G1 : get "command" cf = Good x1) by reflexivity. assert (G2 : get "cwd" cf = Good x2) by reflexivity.
      assert (G3 : get "environ" cf = Good x3) by reflexivity. assert (G4 : get "is_reliable_scorer" cf = Good x4) by reflexivity.
      assert (G5 : get "allow_claim" cf = Good x5) by reflexivity. assert (G6 : get "gtp_aliases" cf = Good x6) by reflexivity.
      assert (G7 : get "startup_gtp_commands" cf = Good x7) by reflexivity. assert (G8 : get "discard_stderr" cf = Good x8) by reflexivity.
      assert (G9 : get "sgf_player_name_from_gtp" cf = Good x9) by reflexivity.
      rewrite G1, G2, G3, G4, G5, G6, G7, G8, G9 in H. cbn [sbind] in H.
      apply bind_good in H. destruct H as (a1 & H1 & H). apply any_good in H1.
      apply bind_good in H. destruct H as (a2 & H2 & H). apply any_good in H2.
      apply bind_good in H. destruct H as (a3 & H3 & H). apply bind_good in H. destruct H as (a4 & H4 & H).
      apply bind_good in H. destruct H as (a5 & H5 & H). apply bind_good in H. destruct H as (a6 & H6 & H).
      apply bind_good in H. destruct H as (a7 & H7 & H).
      apply bind_good in H. destruct H as (a8 & H8 & H). apply value_control_good in H8.
      apply bind_good in H. destruct H as (a9 & H9 & H). apply value_control_good in H9.
      injection H as <-. cbn [p_code p_cmd_args p_cwd p_environ p_reliable p_claim p_discard p_sgf_name p_startup p_aliases].
      split; [reflexivity|].
      split; [exists x1; auto|]. split; [exists x2; auto|]. split; [exists x3; auto|]. split; [exists x4; auto|]. split; [exists x5; auto|].
      split; [exists x8; auto|]. split; [exists x9; auto|]. split; [exists x7; auto|]. exists x6; auto.
    - intros (C & (x1 & L1 & H1) & (x2 & L2 & H2) & (x3 & L3 & H3) & (x4 & L4 & H4) & (x5 & L5 & H5) & (x8 & L8 & H8) & (x9 & L9 & H9) & (x7 & L7 & H7) & (x6 & L6 & H6)).
      set (cf := [(str "command", x1); (str "cwd", x2); (str "environ", x3); (str "is_reliable_scorer", x4); (str "allow_claim", x5);
                  (str "gtp_aliases", x6); (str "startup_gtp_commands", x7); (str "discard_stderr", x8); (str "sgf_player_name_from_gtp", x9)]).
      exists cf. split.
      + apply load_good; [apply player_settings_keys|]. unfold player_settings, cf.
        repeat (constructor; [cbn [fst snd st_name]; split; [reflexivity|assumption]|]). constructor.
      + assert (G1 : get "command" cf = Good x1) by reflexivity. assert (G2 : get "cwd" cf = Good x2) by reflexivity.
        assert (G3 : get "environ" cf = Good x3) by reflexivity. assert (G4 : get "is_reliable_scorer" cf = Good x4) by reflexivity.
        assert (G5 : get "allow_claim" cf = Good x5) by reflexivity. assert (G6 : get "gtp_aliases" cf = Good x6) by reflexivity.
        assert (G7 : get "startup_gtp_commands" cf = Good x7) by reflexivity. assert (G8 : get "discard_stderr" cf = Good x8) by reflexivity.
        assert (G9 : get "sgf_player_name_from_gtp" cf = Good x9) by reflexivity.
        rewrite G1, G2, G3, G4, G5, G6, G7, G8, G9. cbn [sbind].
        rewrite H1, H2. cbn [any_error sbind]. rewrite H3, H4, H5, H8, H9, H7, H6. cbn [value_control sbind].
        rewrite <- C. destruct p. reflexivity. }
  assert (V : forall d, arguments_are (player_class en) args kwargs d ->
     (p_code p = code /\
     (exists y, loaded d (mkSetting (str "command") (interpret_shlex_sequence (en_shlex en)) None) y /\ command_of en y = Good (p_cmd_args p)) /\
     (exists y, loaded d (mkSetting (str "cwd") (allow_none interpret_8bit_string) (Some VNone)) y /\ as_option (path_of en) y = Good (p_cwd p)) /\
     (exists y, loaded d (mkSetting (str "environ") (allow_none map_of_strings) (Some VNone)) y /\ as_option strings_in y = Good (p_environ p)) /\
     (exists y, loaded d (mkSetting (str "is_reliable_scorer") interpret_bool (Some (VBool true))) y /\ as_bool y = Good (p_reliable p)) /\
     (exists y, loaded d (mkSetting (str "allow_claim") interpret_bool (Some (VBool false))) y /\ as_bool y = Good (p_claim p)) /\
     (exists y, loaded d (mkSetting (str "discard_stderr") interpret_bool (Some (VBool false))) y /\ as_bool y = Good (p_discard p)) /\
     (exists y, loaded d (mkSetting (str "sgf_player_name_from_gtp") interpret_bool (Some (VBool true))) y /\ as_bool y = Good (p_sgf_name p)) /\
     (exists y, loaded d (mkSetting (str "startup_gtp_commands") (allow_none interpret_sequence) (Some (VList []))) y /\ startup_of en y = Good (p_startup p)) /\
     (exists y, loaded d (mkSetting (str "gtp_aliases") (allow_none map_of_strings) (Some (VDict []))) y /\ aliases_of y = Good (p_aliases p))) <->
    (p_code p = code /\
    (exists l, value_in [d] "command" (command_value en) None l /\ command_resolved en l (p_cmd_args p)) /\
    value_in [d] "cwd" (none_or (fun v r => exists s, string_value v s /\ resolved en s r)) (Some None) (p_cwd p) /\
    value_in [d] "environ" (none_or strings_map) (Some None) (p_environ p) /\
    value_in [d] "is_reliable_scorer" bool_value (Some true) (p_reliable p) /\
    value_in [d] "allow_claim" bool_value (Some false) (p_claim p) /\
    value_in [d] "discard_stderr" bool_value (Some false) (p_discard p) /\
    value_in [d] "sgf_player_name_from_gtp" bool_value (Some true) (p_sgf_name p) /\
    value_in [d] "startup_gtp_commands" startup_value (Some []) (p_startup p) /\
    value_in [d] "gtp_aliases" aliases_value (Some []) (p_aliases p))).
  { intros d AR.
    rewrite (value_bridge d (mkSetting (str "command") (interpret_shlex_sequence (en_shlex en)) None) "command" _ _ None _ eq_refl (reads_command en) eq_refl).
    rewrite (value_bridge d (mkSetting (str "cwd") (allow_none interpret_8bit_string) (Some VNone)) "cwd" _ _ (Some None) _ eq_refl
      (reads_none _ _ _ string_not_none (reads_path en)) (ex_intro _ None (conj eq_refl eq_refl))).
    rewrite (value_bridge_if proper_dict d (mkSetting (str "environ") (allow_none map_of_strings) (Some VNone)) "environ" _ _ (Some None) _
      (fun v => proper_given cls _ args kwargs d _ v PC AR) eq_refl
      (reads_none_if _ _ _ _ (map_not_none _ _) reads_strings) (ex_intro _ None (conj eq_refl eq_refl))).
    rewrite (value_bridge d (mkSetting (str "is_reliable_scorer") interpret_bool (Some (VBool true))) "is_reliable_scorer" _ _ (Some true) _ eq_refl reads_bool (ex_intro _ true (conj eq_refl eq_refl))).
    rewrite (value_bridge d (mkSetting (str "allow_claim") interpret_bool (Some (VBool false))) "allow_claim" _ _ (Some false) _ eq_refl reads_bool (ex_intro _ false (conj eq_refl eq_refl))).
    rewrite (value_bridge d (mkSetting (str "discard_stderr") interpret_bool (Some (VBool false))) "discard_stderr" _ _ (Some false) _ eq_refl reads_bool (ex_intro _ false (conj eq_refl eq_refl))).
    rewrite (value_bridge d (mkSetting (str "sgf_player_name_from_gtp") interpret_bool (Some (VBool true))) "sgf_player_name_from_gtp" _ _ (Some true) _ eq_refl reads_bool (ex_intro _ true (conj eq_refl eq_refl))).
    rewrite (value_bridge_if (fun _ => True) d (mkSetting (str "startup_gtp_commands") (allow_none interpret_sequence) (Some (VList []))) "startup_gtp_commands" _ _ (Some []) _
      (fun _ _ => I) eq_refl (reads_startup en) (ex_intro _ [] (conj eq_refl eq_refl))).
    rewrite (value_bridge_if proper_dict d (mkSetting (str "gtp_aliases") (allow_none map_of_strings) (Some (VDict []))) "gtp_aliases" _ _ (Some []) _
      (fun v => proper_given cls _ args kwargs d _ v PC AR) eq_refl reads_aliases (ex_intro _ [] (conj eq_refl eq_refl))).
    assert (CV : value_in [d] "command" (fun v r => exists l, command_value en v l /\ command_resolved en l r) None (p_cmd_args p) <->
                 exists l, value_in [d] "command" (command_value en) None l /\ command_resolved en l (p_cmd_args p)).
    { cbn [value_in]. split.
      - intros [(v & G & l & A & B)|[_ X]]; [exists l; split; [left; eauto|exact B]|discriminate].
      - intros (l & [(v & G & A)|[_ X]] & B); [left; eauto|discriminate]. }
    rewrite CV. reflexivity. }
  assert (U : player_from_config en code args kwargs = Good p <->
    exists d, resolve_arguments (player_class en) args kwargs = Good d /\ exists config, load_settings (player_settings en) d true false = Good config /\
       (try cmd_args <- any_error en (str "'command': ") (try v <- get "command" config; command_of en v);
        try cwd <- any_error en (str "'cwd': ") (try v <- get "cwd" config; as_option (path_of en) v);
        try environ <- (try v <- get "environ" config; as_option strings_in v);
        try reliable <- (try v <- get "is_reliable_scorer" config; as_bool v);
        try claim <- (try v <- get "allow_claim" config; as_bool v);
        try discard <- (try v <- get "discard_stderr" config; as_bool v);
        try sgf_name <- (try v <- get "sgf_player_name_from_gtp" config; as_bool v);
        try startup <- value_control (str "'startup_gtp_commands': ") (try v <- get "startup_gtp_commands" config; startup_of en v);
        try aliases <- value_control (str "'gtp_aliases': ") (try v <- get "gtp_aliases" config; aliases_of v);
        Good (mkPlayer code cmd_args cwd environ reliable claim discard sgf_name startup aliases)) = Good p).
  { unfold player_from_config. rewrite bind_good. split; intros (d & R & H); exists d; (split; [exact R|]).
    - apply bind_good in H. destruct H as (config & L & H). exists config. split; [exact L|]. rewrite <- H.
      destruct (get "command" config) as [v1|]; [|reflexivity]. destruct (get "cwd" config) as [v2|]; [|reflexivity]. cbn [sbind]. rewrite cwd_alike. reflexivity.
    - destruct H as (config & L & H). apply bind_good. exists config. split; [exact L|]. rewrite <- H.
      destruct (get "command" config) as [v1|]; [|reflexivity]. destruct (get "cwd" config) as [v2|]; [|reflexivity]. cbn [sbind]. rewrite cwd_alike. reflexivity. }
  rewrite U. unfold player_described. split.
  - intros (d & R & H). pose proof (arguments_resolve _ _ _ NP NK d R) as AR. exists d. split; [exact AR|]. apply V; [exact AR|]. apply W; [exact AR|exact H].
  - intros (d & AR & H). destruct (resolve_arguments_ok _ _ _ _ NP NK AR) as (d' & R & AR' & EX). exists d'. split; [exact R|]. apply W; [exact AR'|]. apply V; [exact AR'|].
    destruct H as (C & (l & H1 & H1') & H2 & H3 & H4 & H5 & H6 & H7 & H8 & H9). split; [exact C|].
    split; [exists l; split; [apply (value_in_ext d d'); assumption|exact H1']|].
    split; [apply (value_in_ext d d'); assumption|]. split; [apply (value_in_ext d d'); assumption|]. split; [apply (value_in_ext d d'); assumption|].
    split; [apply (value_in_ext d d'); assumption|]. split; [apply (value_in_ext d d'); assumption|]. split; [apply (value_in_ext d d'); assumption|].
    split; [apply (value_in_ext d d'); assumption|]. apply (value_in_ext d d'); assumption.
Qed.

(** ** The players of a competition *)
Lemma map_of_total key value v items : dict_of v = Some items ->
  (forall k w, In (k, w) items -> exists s x, key k = Good (VStr s) /\ value w = Good x) -> exists r, interpret_map_of key value v = Good r.
Proof.
  intros DI H1. assert (EX : exists xs, Forall2 (item_ok key value) items xs).
  { clear -H1. induction items as [|[k w] items IH]; [exists []; constructor|]. destruct IH as (xs & F); [intros k' w' I; apply (H1 k' w'); right; exact I|].
    destruct (H1 k w (or_introl eq_refl)) as (s & x & A & B). exists ((s, x) :: xs). constructor; [split; assumption|exact F]. }
  destruct EX as (xs & F). eexists. unfold interpret_map_of. apply bind_good. exists (sort_items xs). split; [|reflexivity]. apply map_of_ok. exists items, xs. auto.
Qed.
Lemma pc_ok v y : interpret_pc v = Good y <-> y = v /\ exists args kwargs, v = VConfig (str "Player") args kwargs.
Proof.
  unfold interpret_pc. destruct v; try (split; [discriminate|intros (_ & a & k & E); discriminate]).
  destruct (bytes_eqb_spec cls (str "Player")) as [->|N].
  - split; [intros E; injection E as <-; eauto|intros [-> _]; reflexivity].
  - split; [discriminate|]. intros (_ & a & k & E). assert (X : cls = str "Player") by congruence. contradiction.
Qed.
Lemma pc_never_key : never_key interpret_pc.
Proof. intros v. unfold interpret_pc. destruct v; try discriminate. destruct (bytes_eqb _ _); discriminate. Qed.
Definition makes (en : environment) (e : bytes * pyval) (q : bytes * player) : Prop :=
  fst q = fst e /\ exists cls args kwargs, snd e = VConfig cls args kwargs /\ player_from_config en (fst e) args kwargs = Good (snd q).
Lemma make_players_spec en es : forall acc r, NoDup (map fst acc ++ map fst es) ->
  make_players en (map (fun p => (VStr (fst p), snd p)) es) acc = Good r <-> exists ps, r = acc ++ ps /\ Forall2 (makes en) es ps.
Proof.
  induction es as [|[s x] es IH]; intros acc r ND; cbn [map make_players fst snd].
  - split; [intros E; injection E as <-; exists []; rewrite app_nil_r; split; constructor|intros (ps & -> & F); inversion F; rewrite app_nil_r; reflexivity].
  - cbn [as_text key_text sbind]. cbn [map fst] in ND.
    assert (NI : ~ In s (map fst acc)). { intros I. apply NoDup_remove_2 in ND. apply ND. apply in_or_app. left. exact I. }
    split.
    + destruct x as [| | | | | | | | | | | |cls args kwargs]; try discriminate. intros H. apply bind_good in H. destruct H as (p & P & H). apply any_good in P.
      rewrite (dset_new s p acc NI) in H. apply IH in H; [|rewrite map_app; cbn [map fst]; rewrite <- app_assoc; exact ND].
      destruct H as (ps & -> & F). exists ((s, p) :: ps). rewrite <- app_assoc. split; [reflexivity|]. constructor; [|exact F]. split; [reflexivity|]. cbn [fst snd]. eauto.
    + intros (ps & -> & F). inversion F as [|? [s' p] ? ps' [E (cls & args & kwargs & EX & P)] F']; subst. cbn [fst snd] in *. subst s' x. rewrite P. cbn [any_error sbind].
      rewrite (dset_new s p acc NI). apply IH; [rewrite map_app; cbn [map fst]; rewrite <- app_assoc; exact ND|]. exists ps'. rewrite <- app_assoc. auto.
Qed.
Lemma forall2_in_l {A B} (R : A -> B -> Prop) l r : Forall2 R l r -> forall x, In x l -> exists y, In y r /\ R x y.
Proof. induction 1 as [|a b l r H F IH]; intros x I; [destruct I|]. destruct I as [<-|I]; [exists b; split; [left; reflexivity|exact H]|]. destruct (IH x I) as (y & J & K). exists y. split; [right; exact J|exact K]. Qed.
Lemma forall2_in_r {A B} (R : A -> B -> Prop) l r : Forall2 R l r -> forall y, In y r -> exists x, In x l /\ R x y.
Proof. induction 1 as [|a b l r H F IH]; intros x I; [destruct I|]. destruct I as [<-|I]; [exists a; split; [left; reflexivity|exact H]|]. destruct (IH x I) as (y & J & K). exists y. split; [right; exact J|exact K]. Qed.
Lemma forall2_total {A B} (R : A -> B -> Prop) l : (forall x, In x l -> exists y, R x y) -> exists r, Forall2 R l r.
Proof.
  induction l as [|x l IH]; intros H; [exists []; constructor|]. destruct (H x (or_introl eq_refl)) as (y & Y). destruct IH as (r & F); [intros z I; apply H; right; exact I|].
  exists (y :: r). constructor; assumption.
Qed.
Lemma makes_keys en es ps : Forall2 (makes en) es ps -> map fst ps = map fst es.
Proof. induction 1 as [|e q es ps [E _] F IH]; [reflexivity|]. cbn [map]. rewrite E, IH. reflexivity. Qed.

Lemma players_keys : never_keys players_settings.
Proof. constructor; [|constructor]. cbn [st_interpreter]. apply map_of_never_key; [apply identifier_never_key|apply pc_never_key]. Qed.
Lemma identifier_good k y : interpret_identifier k = Good y <-> exists s, y = VStr s /\ identifier_value k s.
Proof. rewrite identifier_ok. unfold identifier_value. split; [intros (s & T & N & ->); eauto|intros (s & -> & T & N); eauto]. Qed.
Definition players_of (en : environment) (config : dict pyval) : sres (dict player) :=
  try specials <- control_error (load_settings players_settings config true false);
  try v <- get "players" specials;
  try items <- pairs_in v;
  make_players en items [].
Lemma players_of_spec en config players : proper_players config ->
  players_of en config = Good players <-> players_described en config players.
Proof.
  intros PP. unfold players_of, players_described.
  assert (LD : forall y, (exists d, load_settings players_settings config true false = Good d /\ get "players" d = Good y) <->
                exists v, given config (str "players") v /\ interpret_map_of interpret_identifier interpret_pc v = Good y).
  { intros y. split.
    - intros (d & L & G). apply load_good in L; [|exact players_keys]. apply loaded_cons in L. destruct L as (x & d' & -> & L & F). cbn [st_name] in G. rewrite get_here in G. injection G as <-.
      destruct L as [(v & GV & I)|[_ X]]; [eauto|discriminate].
    - intros (v & GV & I). exists [(str "players", y)]. split; [|apply get_here]. apply load_good; [exact players_keys|]. constructor; [|constructor]. split; [reflexivity|].
      left. exists v. auto. }
  assert (KEY : forall k y, interpret_identifier k = Good y -> exists s, y = VStr s /\ text k s).
  { intros k z E. apply identifier_good in E. destruct E as (s & -> & T & _). eauto. }
  assert (FUN : forall k s s', identifier_value k s -> identifier_value k s' -> s = s').
  { intros k s s' [T _] [T' _]. exact (text_fun _ _ _ T T'). }
  split.
  - intros H. apply bind_good in H. destruct H as (d & L & H). apply (proj1 (control_good _ _)) in L. apply bind_good in H. destruct H as (y & G & H).
    destruct (proj1 (LD y) (ex_intro _ d (conj L G))) as (v & GV & I). destruct (PP v GV) as [PD PI]. destruct (map_of_dict_of _ _ _ _ I) as (items & DI).
    apply (map_of_entries _ _ v items) in I; [|exact KEY|exact DI|exact (proper_distinct _ _ PD DI)]. destruct I as (es & -> & INC & H1 & H2).
    rewrite pairs_in_entries in H. cbn [sbind] in H. apply (make_players_spec en es []) in H; [|apply increasing_nodup; exact INC]. destruct H as (ps & -> & F). cbn [app].
    exists v, items. split; [exact GV|]. split; [exact DI|]. split; [unfold dkeys; rewrite (makes_keys en es ps F); exact INC|].
    assert (DESC : forall k args kwargs s p, In (k, VConfig (str "Player") args kwargs) items -> player_from_config en s args kwargs = Good p -> player_described en s args kwargs p).
    { intros k args kwargs s p I P. apply (player_spec en s (str "Player")); [exact (PI items k _ DI I)|exact P]. }
    split.
    + intros k w I. destruct (H1 k w I) as (s & x & E1 & E2). pose proof E1 as T. apply identifier_good in T. destruct T as (s' & X & T). injection X as <-.
      assert (IE : In (s, x) es) by (apply H2; eauto). destruct (forall2_in_l _ _ _ F _ IE) as ([s' p] & IP & MS). destruct MS as [ES (cls & args & kwargs & EX & P)]. cbn [fst snd] in *. subst s' x.
      apply pc_ok in E2. destruct E2 as (EW & args' & kwargs' & EW'). assert (W : w = VConfig (str "Player") args kwargs) by congruence. clear EW EW'. subst w.
      exists s, args, kwargs, p. split; [exact T|]. split; [reflexivity|]. split; [exact IP|]. exact (DESC _ _ _ _ _ I P).
    + intros code p IP. destruct (forall2_in_r _ _ _ F _ IP) as ([s x] & IE & MS). destruct MS as [ES (cls & args & kwargs & EX & P)]. cbn [fst snd] in *. subst s x.
      apply H2 in IE. destruct IE as (k & w & I & E1 & E2). apply pc_ok in E2. destruct E2 as (EW & args' & kwargs' & EW'). assert (W : w = VConfig (str "Player") args kwargs) by congruence. clear EW EW'. subst w.
      exists k, args, kwargs. split; [exact I|]. apply identifier_good in E1. destruct E1 as (s & X & T). injection X as <-. split; [exact T|]. exact (DESC _ _ _ _ _ I P).
  - intros (v & items & GV & DI & INC & H1 & H2). destruct (PP v GV) as [PD PI].
    assert (TOT : exists r, interpret_map_of interpret_identifier interpret_pc v = Good r).
    { apply (map_of_total _ _ v items DI). intros k w I. destruct (H1 k w I) as (s & args & kwargs & p & T & -> & _ & _). exists s, (VConfig (str "Player") args kwargs).
      split; [apply identifier_good; eauto|apply pc_ok; eauto]. }
    destruct TOT as (y & I). destruct (proj2 (LD y) (ex_intro _ v (conj GV I))) as (d & L & G). rewrite L. cbn [control_error sbind]. rewrite G. cbn [sbind].
    apply (map_of_entries _ _ v items) in I; [|exact KEY|exact DI|exact (proper_distinct _ _ PD DI)]. destruct I as (es & -> & INE & E1 & E2).
    rewrite pairs_in_entries. cbn [sbind]. apply (make_players_spec en es []); [apply increasing_nodup; exact INE|].
    assert (EX : exists ps, Forall2 (makes en) es ps).
    { apply forall2_total. intros [s x] IE. apply E2 in IE. destruct IE as (k & w & I & K & W). apply pc_ok in W. destruct W as (-> & _).
      destruct (H1 k w I) as (s' & args & kwargs & p & T & -> & _ & D). assert (X : s' = s). { apply identifier_good in K. destruct K as (t & X & K). injection X as <-. exact (FUN _ _ _ T K). } subst s'.
      exists (s, p). split; [reflexivity|]. cbn [fst snd]. exists (str "Player"), args, kwargs. split; [reflexivity|]. apply (player_spec en s (str "Player")); [exact (PI items k _ DI I)|exact D]. }
    destruct EX as (ps & F). exists ps. split; [|exact F]. cbn [app].
    assert (MK : forall k args kwargs s p p', In (k, VConfig (str "Player") args kwargs) items -> player_described en s args kwargs p ->
       player_from_config en s args kwargs = Good p' -> p = p').
    { intros k args kwargs s p p' I D P. apply (player_spec en s (str "Player")) in D; [congruence|exact (PI items k _ DI I)]. }
    apply increasing_same; [exact INC|rewrite (makes_keys en es ps F); exact INE|]. intros [code p]. split; intros IP.
    + destruct (H2 code p IP) as (k & args & kwargs & I & T & D). assert (IE : In (code, VConfig (str "Player") args kwargs) es).
      { apply E2. exists k, (VConfig (str "Player") args kwargs). split; [exact I|]. split; [apply identifier_good; eauto|apply pc_ok; eauto]. }
      destruct (forall2_in_l _ _ _ F _ IE) as ([s p'] & IP' & [ES (cls & args' & kwargs' & EX & P)]). cbn [fst snd] in *. subst s. injection EX as <- <- <-.
      rewrite (MK _ _ _ _ _ _ I D P). exact IP'.
    + destruct (forall2_in_r _ _ _ F _ IP) as ([s x] & IE & [ES (cls & args & kwargs & EX & P)]). cbn [fst snd] in *. subst s x.
      apply E2 in IE. destruct IE as (k & w & I & K & W). apply pc_ok in W. destruct W as (EW & a' & k' & EW'). subst w. injection EW' as -> <- <-.
      destruct (H1 _ _ I) as (s' & args' & kwargs' & p' & T & EW' & IP' & D). injection EW' as <- <-.
      assert (X : s' = code). { apply identifier_good in K. destruct K as (t & X & K). injection X as <-. exact (FUN _ _ _ T K). } subst s'.
      rewrite <- (MK _ _ _ _ _ _ I D P). exact IP'.
Qed.
Theorem competition_spec en settings config attributes players : proper_players config ->
  competition_from_control en settings config = Good (attributes, players) <->
  load_settings settings config true false = Good attributes /\ players_described en config players.
Proof.
  intros PP. rewrite <- (players_of_spec en config players PP). unfold competition_from_control, players_of. split.
  - intros H. apply bind_good in H. destruct H as (d & L & H). apply (proj1 (control_good _ _)) in L.
    apply bind_good in H. destruct H as (sp & S & H). rewrite S. cbn [sbind].
    apply bind_good in H. destruct H as (y & G & H). rewrite G. cbn [sbind]. apply bind_good in H. destruct H as (l & E & H). rewrite E. cbn [sbind].
    apply bind_good in H. destruct H as (ps & M & H). injection H as <- <-. auto.
  - intros [L H]. rewrite L. cbn [control_error sbind]. apply bind_good in H. destruct H as (sp & S & H). rewrite S. cbn [sbind].
    apply bind_good in H. destruct H as (y & G & H). rewrite G. cbn [sbind]. apply bind_good in H. destruct H as (l & E & H). rewrite E. cbn [sbind]. rewrite H. reflexivity.
Qed.
