(** Reading all-play-all control files (C54). *)
From Coq Require Import QArith.
From Verif Require Import Base Bytes PyStr Dict SgfPropsSpec CommonModel GameplayModel TournModel TournSpec TournProofs TournConfProofs
  SettingsModel SettingsSpec SettingsProofs SettingsLoadProofs SettingsConfigProofs SettingsMoreProofs ControlModel ControlSpec ControlProofs ControlPlayerProofs ControlGameProofs ControlMatchupProofs.
From Verif Require GtpModel.
Open Scope Z_scope.

(** ** Interpreted values can be converted *)
Definition total {A} (f : interpreter) (conv : pyval -> sres A) : Prop := forall v y, f v = Good y -> exists a, conv y = Good a.
Lemma total_int : total interpret_int as_int.
Proof. intros v y E. apply int_ok in E. destruct E as (-> & z & Z1). exists z. apply as_int_spec. exact Z1. Qed.
Lemma total_none {A} f (conv : pyval -> sres A) : total f conv -> total (allow_none f) (as_option conv).
Proof.
  intros T v y E. apply none_ok in E. destruct E as [[-> ->]|[N E]]; [exists None; reflexivity|]. destruct (T _ _ E) as (a & C).
  unfold as_option. destruct y; try (exists (Some a); rewrite C; reflexivity). exists None. reflexivity.
Qed.
Lemma total_size : total interpret_board_size as_int.
Proof. intros v y E. apply board_size_ok in E. destruct E as (-> & z & Z1 & _). exists z. apply as_int_spec. exact Z1. Qed.
Lemma total_positive : total interpret_positive_int as_int.
Proof. intros v y E. apply positive_ok in E. destruct E as (-> & z & Z1 & _). exists z. apply as_int_spec. exact Z1. Qed.
Lemma total_float : total interpret_float as_float.
Proof.
  intros v y E. unfold interpret_float in E. destruct v; try discriminate;
    repeat match type of E with context [float_of_int ?x] => destruct (float_of_int x); try discriminate end; injection E as <-; eexists; reflexivity.
Qed.
Lemma enum_total values v y : interpret_enum values v = Good y -> exists s, as_text y = Good s.
Proof. intros E. apply enum_ok in E. destruct E as (-> & s & T & _). exists s. apply as_text_spec. exact T. Qed.
Lemma total_scorer values : total (interpret_enum values) scorer_of.
Proof. intros v y E. destruct (enum_total _ _ _ E) as (s & C). unfold scorer_of. rewrite C. cbn [sbind]. eauto. Qed.
Lemma total_compensation values : total (interpret_enum values) as_compensation.
Proof. intros v y E. destruct (enum_total _ _ _ E) as (s & C). unfold as_compensation. rewrite C. cbn [sbind]. eauto. Qed.

Lemma found_total {A} ds s (conv : pyval -> sres A) default y : total (st_interpreter s) conv -> converts conv (st_default s) default -> found ds s y ->
  exists a, conv y = Good a.
Proof.
  intros T C. induction ds as [|d ds IH]; cbn [found].
  - intros E. unfold converts in C. rewrite E in C. destruct C as (a & C & _). eauto.
  - intros [(v & _ & E)|[_ F]]; [exact (T _ _ E)|exact (IH F)].
Qed.

(** ** The games *)
Definition sBS := mkSetting (str "board_size") interpret_board_size None.
Definition sKO := mkSetting (str "komi") interpret_float None.
Definition sML := mkSetting (str "move_limit") interpret_positive_int (Some (VInt 1000)).
Definition sSC := mkSetting (str "scorer") (interpret_enum [str "internal"; str "players"]) (Some (VStr (str "players"))).
Definition sCO := mkSetting (str "internal_scorer_handicap_compensation") (interpret_enum [str "no"; str "full"; str "short"]) (Some (VStr (str "full"))).
Definition sRO := mkSetting (str "rounds") (allow_none interpret_int) (Some VNone).
Lemma allplayall_settings_are : allplayall_settings = [sBS; sKO; sML; sSC; sCO; sRO].
Proof. reflexivity. Qed.
Lemma allplayall_keys : never_keys allplayall_settings.
Proof.
  rewrite allplayall_settings_are. unfold never_keys, sBS, sKO, sML, sSC, sCO, sRO. repeat constructor; cbn [st_interpreter]; try apply enum_never_key; try apply allow_none_never_key, int_never_key.
  - intros v. unfold interpret_board_size. destruct (int_of v) as [z|]; [destruct (z <? 2); [|destruct (25 <? z)]|]; discriminate.
  - apply float_never_key.
  - apply positive_never_key.
Qed.
Definition loaded_all (config : dict pyval) (d : dict pyval) : Prop :=
  exists y1 y2 y3 y4 y5 y6, d = [(str "board_size", y1); (str "komi", y2); (str "move_limit", y3); (str "scorer", y4);
      (str "internal_scorer_handicap_compensation", y5); (str "rounds", y6)] /\
    found [config] sBS y1 /\ found [config] sKO y2 /\ found [config] sML y3 /\ found [config] sSC y4 /\ found [config] sCO y5 /\ found [config] sRO y6.
Lemma load_all config d : load_settings allplayall_settings config true false = Good d <-> loaded_all config d.
Proof.
  rewrite (load_found _ _ _ allplayall_keys). rewrite allplayall_settings_are. unfold loaded_all. split.
  - intros L. apply loaded_cons in L. destruct L as (y1 & d1 & -> & L1 & L). apply loaded_cons in L. destruct L as (y2 & d2 & -> & L2 & L).
    apply loaded_cons in L. destruct L as (y3 & d3 & -> & L3 & L). apply loaded_cons in L. destruct L as (y4 & d4 & -> & L4 & L).
    apply loaded_cons in L. destruct L as (y5 & d5 & -> & L5 & L). apply loaded_cons in L. destruct L as (y6 & d6 & -> & L6 & L). apply loaded_nil in L. subst d6.
    exists y1, y2, y3, y4, y5, y6. split; [reflexivity|]. auto 10.
  - intros (y1 & y2 & y3 & y4 & y5 & y6 & -> & F1 & F2 & F3 & F4 & F5 & F6).
    constructor; [auto|]. constructor; [auto|]. constructor; [auto|]. constructor; [auto|]. constructor; [auto|]. constructor; [auto|]. constructor.
Qed.
Definition with_rounds (d : dict pyval) (rounds : pyval) : dict pyval :=
  dset (str "number_of_games") rounds (ddel (str "rounds") (dset (str "alternating") (VBool true) d)).
Lemma fill_all y1 y2 y3 y4 y5 y6 :
  fill matchup_settings (with_rounds [(str "board_size", y1); (str "komi", y2); (str "move_limit", y3); (str "scorer", y4);
      (str "internal_scorer_handicap_compensation", y5); (str "rounds", y6)] y6) =
  Good [(str "board_size", y1); (str "komi", y2); (str "handicap", VNone); (str "handicap_style", VStr (str "fixed")); (str "move_limit", y3); (str "scorer", y4);
    (str "internal_scorer_handicap_compensation", y5); (str "alternating", VBool true); (str "number_of_games", y6)].
Proof. reflexivity. Qed.

Section Komi.
Variable to_num : pyfloat -> num.

Definition all_values (y1 y2 y3 y4 y5 y6 : pyval) : dict pyval :=
  [(str "board_size", y1); (str "komi", y2); (str "handicap", VNone); (str "handicap_style", VStr (str "fixed")); (str "move_limit", y3); (str "scorer", y4);
    (str "internal_scorer_handicap_compensation", y5); (str "alternating", VBool true); (str "number_of_games", y6)].
Lemma settings_all y1 y2 y3 y4 y5 y6 : settings_of to_num (all_values y1 y2 y3 y4 y5 y6) =
  (try size <- as_int y1; try komi <- as_float y2; try limit <- as_int y3; try internal <- scorer_of y4; try comp <- as_compensation y5;
   Good (mkSet size (to_num komi) None false limit internal comp)).
Proof.
  transitivity (try size <- as_int y1; try komi <- as_float y2; try limit <- as_int y3; try scorer <- as_text y4; try comp <- as_compensation y5;
    Good (mkSet size (to_num komi) None false limit (bytes_eqb scorer (str "internal")) comp)).
  - reflexivity.
  - unfold scorer_of. destruct (as_int y1); [|reflexivity]. cbn [sbind]. destruct (as_float y2); [|reflexivity]. cbn [sbind]. destruct (as_int y3); [|reflexivity]. cbn [sbind].
    destruct (as_text y4); reflexivity.
Qed.
Lemma others_all y1 y2 y3 y4 y5 y6 :
  (try v <- get "alternating" (all_values y1 y2 y3 y4 y5 y6); as_bool v) = Good true /\
  (try v <- get "number_of_games" (all_values y1 y2 y3 y4 y5 y6); as_option as_int v) = as_option as_int y6.
Proof. split; reflexivity. Qed.
Lemma games_exist config d : loaded_all config d -> exists y6 s rounds, get "rounds" d = Good y6 /\ allplayall_games to_num config s rounds /\
  forall event_code id p1 p2, control_matchup to_num event_code id p1 p2 (with_rounds d y6) None = Good (mkM id p1 p2 true rounds s, p1 ++ str " v " ++ p2, event_code).
Proof.
  intros (y1 & y2 & y3 & y4 & y5 & y6 & -> & F1 & F2 & F3 & F4 & F5 & F6). exists y6.
  destruct (found_total [config] sBS as_int None _ total_size eq_refl F1) as (a1 & C1).
  destruct (found_total [config] sKO as_float None _ total_float eq_refl F2) as (a2 & C2).
  destruct (found_total [config] sML as_int (Some 1000) _ total_positive (ex_intro _ 1000 (conj eq_refl eq_refl)) F3) as (a3 & C3).
  destruct (found_total [config] sSC scorer_of (Some false) _ (total_scorer _) (ex_intro _ false (conj eq_refl eq_refl)) F4) as (a4 & C4).
  destruct (found_total [config] sCO as_compensation (Some CompFull) _ (total_compensation _) (ex_intro _ CompFull (conj eq_refl eq_refl)) F5) as (a5 & C5).
  destruct (found_total [config] sRO (as_option as_int) (Some None) _ (total_none _ _ total_int) (ex_intro _ None (conj eq_refl eq_refl)) F6) as (a6 & C6).
  exists (mkSet a1 (to_num a2) None false a3 a4 a5), a6. split; [reflexivity|]. split.
  - unfold allplayall_games. cbn [s_board_size s_komi s_handicap s_free s_move_limit s_internal s_compensation].
    split; [apply (found_bridge [config] sBS "board_size" as_int size_value None a1 eq_refl reads_size eq_refl); eauto|].
    split; [exists a2; split; [apply (found_bridge [config] sKO "komi" as_float float_value None a2 eq_refl reads_float eq_refl); eauto|reflexivity]|].
    split; [reflexivity|]. split; [reflexivity|].
    split; [apply (found_bridge [config] sML "move_limit" as_int positive_value (Some 1000) a3 eq_refl reads_positive (ex_intro _ 1000 (conj eq_refl eq_refl))); eauto|].
    split; [apply (found_bridge [config] sSC "scorer" scorer_of (choice_value scorer_table) (Some false) a4 eq_refl reads_scorer (ex_intro _ false (conj eq_refl eq_refl))); eauto|].
    split; [apply (found_bridge [config] sCO "internal_scorer_handicap_compensation" as_compensation (choice_value compensation_table) (Some CompFull) a5 eq_refl
      reads_compensation (ex_intro _ CompFull (conj eq_refl eq_refl))); eauto|].
    apply (found_bridge [config] sRO "rounds" (as_option as_int) (none_or int_value) (Some None) a6 eq_refl (reads_none _ _ _ int_not_none reads_int) (ex_intro _ None (conj eq_refl eq_refl))). eauto.
  - intros event_code id p1 p2. unfold control_matchup. rewrite fill_all. cbn [sbind].
    change ([(str "board_size", y1); _; _; _; _; _; _; _; _]) with (all_values y1 y2 y3 y4 y5 y6).
    rewrite settings_all, C1. cbn [sbind]. rewrite C2. cbn [sbind]. rewrite C3. cbn [sbind]. rewrite C4. cbn [sbind]. rewrite C5. cbn [sbind].
    rewrite (proj1 (others_all y1 y2 y3 y4 y5 y6)). cbn [sbind]. rewrite (proj2 (others_all y1 y2 y3 y4 y5 y6)), C6. reflexivity.
Qed.

Lemma value_fun {A} ds s name (conv : pyval -> sres A) R default a b :
  st_name s = str name -> reads (st_interpreter s) conv R -> converts conv (st_default s) default ->
  value_in ds name R default a -> value_in ds name R default b -> a = b.
Proof.
  intros N RD CV H1 H2. apply (found_bridge ds s name conv R default _ N RD CV) in H1, H2. destruct H1 as (y & F & C), H2 as (y' & F' & C').
  rewrite (found_fun _ _ _ _ F F') in C. congruence.
Qed.
Lemma games_fun config s s' r r' : allplayall_games to_num config s r -> allplayall_games to_num config s' r' -> s = s' /\ r = r'.
Proof.
  intros (H1 & (f & H2 & K) & H3 & H4 & H5 & H6 & H7 & H8) (H1' & (f' & H2' & K') & H3' & H4' & H5' & H6' & H7' & H8').
  pose proof (value_fun [config] sBS "board_size" as_int size_value None _ _ eq_refl reads_size eq_refl H1 H1') as E1.
  pose proof (value_fun [config] sKO "komi" as_float float_value None _ _ eq_refl reads_float eq_refl H2 H2') as E2.
  pose proof (value_fun [config] sML "move_limit" as_int positive_value (Some 1000) _ _ eq_refl reads_positive (ex_intro _ 1000 (conj eq_refl eq_refl)) H5 H5') as E5.
  pose proof (value_fun [config] sSC "scorer" scorer_of (choice_value scorer_table) (Some false) _ _ eq_refl reads_scorer (ex_intro _ false (conj eq_refl eq_refl)) H6 H6') as E6.
  pose proof (value_fun [config] sCO "internal_scorer_handicap_compensation" as_compensation (choice_value compensation_table) (Some CompFull) _ _ eq_refl
      reads_compensation (ex_intro _ CompFull (conj eq_refl eq_refl)) H7 H7') as E7.
  pose proof (value_fun [config] sRO "rounds" (as_option as_int) (none_or int_value) (Some None) _ _ eq_refl (reads_none _ _ _ int_not_none reads_int) (ex_intro _ None (conj eq_refl eq_refl)) H8 H8') as E8.
  split; [|exact E8]. subst f'. destruct s, s'. cbn in *. congruence.
Qed.
Lemma games_loaded config s r : allplayall_games to_num config s r -> exists d, loaded_all config d.
Proof.
  intros (H1 & (f & H2 & K) & H3 & H4 & H5 & H6 & H7 & H8).
  apply (found_bridge [config] sBS "board_size" as_int size_value None _ eq_refl reads_size eq_refl) in H1. destruct H1 as (y1 & F1 & _).
  apply (found_bridge [config] sKO "komi" as_float float_value None _ eq_refl reads_float eq_refl) in H2. destruct H2 as (y2 & F2 & _).
  apply (found_bridge [config] sML "move_limit" as_int positive_value (Some 1000) _ eq_refl reads_positive (ex_intro _ 1000 (conj eq_refl eq_refl))) in H5. destruct H5 as (y3 & F3 & _).
  apply (found_bridge [config] sSC "scorer" scorer_of (choice_value scorer_table) (Some false) _ eq_refl reads_scorer (ex_intro _ false (conj eq_refl eq_refl))) in H6. destruct H6 as (y4 & F4 & _).
  apply (found_bridge [config] sCO "internal_scorer_handicap_compensation" as_compensation (choice_value compensation_table) (Some CompFull) _ eq_refl
      reads_compensation (ex_intro _ CompFull (conj eq_refl eq_refl))) in H7. destruct H7 as (y5 & F5 & _).
  apply (found_bridge [config] sRO "rounds" (as_option as_int) (none_or int_value) (Some None) _ eq_refl (reads_none _ _ _ int_not_none reads_int) (ex_intro _ None (conj eq_refl eq_refl))) in H8. destruct H8 as (y6 & F6 & _).
  eexists. exists y1, y2, y3, y4, y5, y6. split; [reflexivity|]. auto 10.
Qed.

(** ** The competitors *)
Lemma short_code_ok i c : short_code i = Ok c <-> (i < 702)%nat /\ c = letters (Z.of_nat i).
Proof.
  unfold short_code, letters, let_. destruct (Z.ltb_spec (Z.of_nat i) 26).
  - split; [intros E; injection E as <-; split; [lia|reflexivity]|intros [_ ->]; reflexivity].
  - destruct (Z.ltb_spec (Z.of_nat i) (26 * 27)).
    + split; [intros E; injection E as <-; split; [lia|reflexivity]|intros [_ ->]; reflexivity].
    + split; [discriminate|]. intros [L _]. lia.
Qed.
(** As a Competitor, whichever way it was written. *)
Definition written_competitor (v : pyval) (code : bytes) : Prop :=
  exists args kwargs d w, v = VConfig (str "Competitor") args kwargs /\ arguments_are competitor_class args kwargs d /\
     dget (str "player") d = Some w /\ text w code.
Lemma competitor_positional : NoDup (qc_positional competitor_class).
Proof. cbn. repeat constructor. intros []. Qed.
Lemma competitor_one en i players args kwargs c p : NoDup (map fst kwargs) ->
  competitor_from_control en i players args kwargs = Good (c, p) <->
  written_competitor (VConfig (str "Competitor") args kwargs) p /\ In p (dkeys players) /\ (i < 702)%nat /\ c = letters (Z.of_nat i).
Proof.
  intros NK. unfold competitor_from_control, written_competitor. split.
  - intros H. apply bind_good in H. destruct H as (d & R & H). pose proof (arguments_resolve _ _ _ competitor_positional NK d R) as AR.
    destruct (dget (str "player") d) as [v|] eqn:D; [|discriminate]. apply bind_good in H. destruct H as (f & F & H). destruct f as [p'|]; [|discriminate].
    apply find_player_spec in F. destruct F as [T I]. destruct (short_code i) as [c'|] eqn:SC; [|discriminate]. injection H as <- <-. apply short_code_ok in SC.
    split; [|split; [exact I|exact SC]]. exists args, kwargs, d, v. auto.
  - intros ((a & k & d0 & w & E & AR0 & D0 & T) & I & SC). assert (a = args) by congruence. assert (k = kwargs) by congruence. subst a k.
    destruct (resolve_arguments_ok _ _ _ _ competitor_positional NK AR0) as (d & R & AR & EX). rewrite R. cbn [sbind]. rewrite <- EX, D0.
    rewrite (proj2 (find_player_spec players w p) (conj T I)). cbn [sbind]. rewrite (proj2 (short_code_ok i c) SC). reflexivity.
Qed.
Lemma competitors_spec en players l : Forall (fun v => exists args kwargs, v = VConfig (str "Competitor") args kwargs /\ NoDup (map fst kwargs)) l ->
  forall i seen cs,
  competitors_from_control en i players l seen = Good cs <->
  exists codes, cs = map (fun p => (letters (fst p), snd p)) (numbered (Z.of_nat i) codes) /\ Forall2 written_competitor l codes /\
    (codes = [] \/ i + List.length codes <= 702)%nat /\ NoDup codes /\ (forall c, In c codes -> ~ In c seen) /\ incl codes (dkeys players).
Proof.
  intros FA. induction FA as [|v l (args & kwargs & -> & NK) FA IH]; intros i seen cs; cbn [competitors_from_control].
  - split.
    + intros E. injection E as <-. exists []. split; [reflexivity|]. split; [constructor|]. split; [auto|]. split; [constructor|]. split; [intros c []|intros c []].
    + intros (codes & -> & F & _). inversion F. reflexivity.
  - rewrite bind_good. split.
    + intros ([c p] & C & H). apply any_good in C. apply (competitor_one en i players args kwargs c p NK) in C. destruct C as (W & I & LT & ->). cbn [snd] in H.
      destruct (bmem_spec p seen) as [|NI]; [discriminate|]. apply bind_good in H. destruct H as (r & H & E). injection E as <-.
      apply IH in H. destruct H as (codes & -> & F & LE & ND & NS & IN). exists (p :: codes). cbn [numbered map fst snd].
      split; [do 3 f_equal; lia|]. split; [constructor; assumption|]. split; [right; cbn [List.length]; destruct LE as [->|LE]; [cbn; lia|lia]|].
      split; [constructor; [intros J; apply (NS _ J); left; reflexivity|exact ND]|].
      split; [intros c [<-|J]; [exact NI|intros K; apply (NS _ J); right; exact K]|]. intros c [<-|J]; [exact I|exact (IN _ J)].
    + intros (codes & -> & F & LE & ND & NS & IN). inversion F as [|? p ? codes' W F']; subst. cbn [numbered map fst snd]. inversion ND as [|? ? NP ND']; subst.
      assert (LE' : (i + List.length (p :: codes') <= 702)%nat) by (destruct LE as [X|X]; [discriminate|exact X]). cbn [List.length] in LE'.
      exists (letters (Z.of_nat i), p). split.
      { apply any_good. apply competitor_one; [exact NK|]. split; [exact W|]. split; [apply IN; left; reflexivity|]. split; [lia|reflexivity]. }
      cbn [snd]. destruct (bmem_spec p seen) as [J|NI]; [exfalso; apply (NS p); [left; reflexivity|exact J]|].
      apply bind_good. exists (map (fun p => (letters (fst p), snd p)) (numbered (Z.of_nat i + 1) codes')). split; [|reflexivity].
      apply IH. exists codes'. split; [do 2 f_equal; lia|]. split; [exact F'|]. split; [right; lia|]. split; [exact ND'|].
      split; [intros c J [<-|K]; [contradiction|apply (NS c); [right; exact J|exact K]]|intros c J; apply IN; right; exact J].
Qed.

Lemma allplayall_special_keys : never_keys allplayall_special.
Proof. constructor; [|constructor]. cbn [st_interpreter]. apply sequence_of_never_key, quiet_config_never_key. Qed.
(** Which way it was written doesn't matter. *)
Definition as_competitor (v : pyval) : pyval :=
  match v with VConfig c _ _ => if bytes_eqb c (str "Competitor") then v else VConfig (str "Competitor") [v] [] | _ => VConfig (str "Competitor") [v] [] end.
Lemma simple_competitor v code : written_competitor (VConfig (str "Competitor") [v] []) code <-> text v code.
Proof.
  unfold written_competitor. split.
  - intros (args & kwargs & d & w & E & [_ A] & D & T). assert (args = [v]) by congruence. assert (kwargs = []) by congruence. subst args kwargs. apply A in D.
    destruct D as [(i & P & N)|[]]. destruct i as [|i]; [|destruct i; discriminate]. cbn in N. injection N as <-. exact T.
  - intros T. exists [v], [], [(str "player", v)], v. split; [reflexivity|]. split; [|split; [reflexivity|exact T]]. split.
    + split; [cbn; lia|]. split; intros n w [].
    + intros n w. unfold argument. cbn [dget]. destruct (bytes_eqb_spec n (str "player")) as [->|NE].
      * split; [intros E; injection E as <-; left; exists O; split; reflexivity|]. intros [(i & P & N)|[]]. destruct i as [|i]; [exact N|destruct i; discriminate].
      * split; [discriminate|]. intros [(i & P & N)|[]]. destruct i as [|i]; [cbn [competitor_class qc_positional nth_error] in P; congruence|destruct i; discriminate].
Qed.
Lemma competitor_alike v code : written_competitor (as_competitor v) code <-> competitor_value v code.
Proof.
  unfold competitor_value. change (exists args kwargs d w, v = VConfig (str "Competitor") args kwargs /\ arguments_are competitor_class args kwargs d /\
     dget (str "player") d = Some w /\ text w code) with (written_competitor v code).
  assert (O : (forall args kwargs, v <> VConfig (str "Competitor") args kwargs) -> written_competitor (VConfig (str "Competitor") [v] []) code <-> written_competitor v code \/ text v code).
  { intros N. rewrite simple_competitor. split; [auto|]. intros [(a & k & _ & _ & E & _)|T]; [exfalso; exact (N a k E)|exact T]. }
  destruct v; try (apply O; intros; discriminate). cbn [as_competitor]. destruct (bytes_eqb_spec cls (str "Competitor")) as [->|N].
  - split; [auto|]. intros [H|T]; [exact H|inversion T].
  - apply O. intros a k E. assert (X : cls = str "Competitor") by congruence. contradiction.
Qed.
Lemma as_competitor_proper v : proper_call v -> exists args kwargs, as_competitor v = VConfig (str "Competitor") args kwargs /\ NoDup (map fst kwargs).
Proof.
  intros P. assert (O : exists args kwargs, VConfig (str "Competitor") [v] [] = VConfig (str "Competitor") args kwargs /\ NoDup (map fst kwargs)) by (exists [v], []; split; [reflexivity|constructor]).
  destruct v; try exact O. cbn [as_competitor]. destruct (bytes_eqb_spec cls (str "Competitor")) as [->|N]; [|exact O].
  exists args, kwargs. split; [reflexivity|]. exact (proj1 (P _ _ _ eq_refl)).
Qed.
Lemma quiet_competitor v : interpret_quiet_config (str "Competitor") (str "Competitor") true v = Good (as_competitor v).
Proof. unfold interpret_quiet_config, as_competitor. destruct v; try reflexivity. destruct (bytes_eqb cls (str "Competitor")); reflexivity. Qed.
Lemma competitors_loaded config d y : load_settings allplayall_special config true false = Good d -> get "competitors" d = Good y ->
  exists v l, given config (str "competitors") v /\ elements v l /\ y = VList (map as_competitor l).
Proof.
  intros L G. apply load_good in L; [|exact allplayall_special_keys]. apply loaded_cons in L. destruct L as (x & d' & -> & L & F). cbn [st_name] in G. rewrite get_here in G. injection G as ->.
  destruct L as [(v & GV & I)|[_ X]]; [|discriminate]. cbn [st_interpreter] in I. unfold interpret_sequence_of_quiet_configs in I. apply sequence_of_ok in I. destruct I as (l & xs & EL & FO & ->).
  exists v, l. split; [exact GV|]. split; [exact EL|]. f_equal. clear -FO. induction FO as [|a b l xs E FO IH]; [reflexivity|]. rewrite quiet_competitor in E. injection E as <-. cbn [map]. rewrite IH. reflexivity.
Qed.
Lemma competitors_load config v l : given config (str "competitors") v -> elements v l ->
  exists d, load_settings allplayall_special config true false = Good d /\ get "competitors" d = Good (VList (map as_competitor l)).
Proof.
  intros GV EL. exists [(str "competitors", VList (map as_competitor l))]. split; [|apply get_here]. apply load_good; [exact allplayall_special_keys|]. constructor; [|constructor]. split; [reflexivity|].
  left. exists v. split; [exact GV|]. cbn [st_interpreter snd]. unfold interpret_sequence_of_quiet_configs. apply sequence_of_ok. exists l, (map as_competitor l). split; [exact EL|]. split; [|reflexivity].
  clear. induction l as [|x l IH]; cbn [map]; constructor; [apply quiet_competitor|exact IH].
Qed.

(** ** The matchups *)
Lemma meetings_spec en event_code parameters rounds s c1 l :
  (forall id p1 p2, control_matchup to_num event_code id p1 p2 parameters None = Good (mkM id p1 p2 true rounds s, p1 ++ str " v " ++ p2, event_code)) ->
  meetings to_num en event_code parameters (letters (fst c1), snd c1) (map (fun p => (letters (fst p), snd p)) l) = Good (map (meeting event_code rounds s) (map (fun y => (c1, y)) l)).
Proof.
  intros CM. induction l as [|c2 l IH]; [reflexivity|]. cbn [map meetings fst snd]. rewrite CM. cbn [any_error sbind]. rewrite IH. reflexivity.
Qed.
Lemma all_meetings_spec en event_code parameters rounds s l :
  (forall id p1 p2, control_matchup to_num event_code id p1 p2 parameters None = Good (mkM id p1 p2 true rounds s, p1 ++ str " v " ++ p2, event_code)) ->
  all_meetings to_num en event_code parameters (map (fun p => (letters (fst p), snd p)) l) = Good (map (meeting event_code rounds s) (pairs l)).
Proof.
  intros CM. induction l as [|c1 l IH]; [reflexivity|]. cbn [map all_meetings pairs]. rewrite (meetings_spec en event_code parameters rounds s c1 l CM). cbn [sbind].
  rewrite IH. cbn [sbind]. rewrite map_app. reflexivity.
Qed.
Lemma numbered_snd {A} (l : list A) i : map snd (numbered i l) = l.
Proof. revert i. induction l as [|x l IH]; intros i; [reflexivity|]. cbn [numbered map snd]. rewrite IH. reflexivity. Qed.

Lemma base_described config d o : load_settings base_settings config true false = Good d -> description_of d = Good o <-> description_is config o.
Proof.
  intros L. apply load_found in L; [|exact base_keys]. apply (description_spec [config] base_settings d o L); [cbn; repeat constructor; intros []|left; reflexivity].
Qed.
Lemma base_loaded config o : description_is config o -> exists d, load_settings base_settings config true false = Good d.
Proof.
  intros D. assert (X : exists d, all_found [config] base_settings d).
  { apply all_found_total. intros s [<-|[]]. apply (found_bridge [config] (mkSetting (str "description") (allow_none interpret_as_utf8_stripped) (Some VNone)) "description" (as_option as_text) (none_or description_value) (Some None) _ eq_refl
      (reads_none _ _ _ stripped_not_none reads_description) (ex_intro _ None (conj eq_refl eq_refl))) in D. destruct D as (y & Y & _). eauto. }
  destruct X as (d & F). exists d. apply load_found; [exact base_keys|exact F].
Qed.
Lemma elements_fun v l l' : elements v l -> elements v l' -> l = l'.
Proof. intros A B. apply list_of_spec in A, B. congruence. Qed.

Theorem allplayall_spec en event_code config tc : proper_players config -> proper_competitors config ->
  allplayall_from_control to_num en event_code config = Good tc <-> allplayall_described to_num en event_code config tc.
Proof.
  intros PP PM. unfold allplayall_from_control, allplayall_described. split.
  - intros H. apply bind_good in H. destruct H as ([at_ ps] & C & H). apply (competition_spec en base_settings config at_ ps PP) in C. destruct C as [LB PD].
    apply bind_good in H. destruct H as (d & LD & H). apply (proj1 (control_good _ _)) in LD. apply load_all in LD.
    destruct (games_exist config d LD) as (y6 & s & rounds & G6 & AG & CM). rewrite G6 in H. cbn [sbind] in H. fold (with_rounds d y6) in H.
    apply bind_good in H. destruct H as (sp & LS & H). apply (proj1 (control_good _ _)) in LS. apply bind_good in H. destruct H as (y & G & H).
    destruct (competitors_loaded _ _ _ LS G) as (v & l & GV & EL & ->). cbn [list_of] in H.
    assert (NE : l <> []) by (intros ->; discriminate).
    assert (H' : (try cs <- competitors_from_control en 0 ps (map as_competitor l) []; try ms <- all_meetings to_num en event_code (with_rounds d y6) cs; try description <- description_of at_;
       Good (mkTC description ps ms (Some (map snd cs)))) = Good tc).
    { destruct l; [congruence|exact H]. }
    clear H. apply bind_good in H'. destruct H' as (cs & M & H). apply bind_good in H. destruct H as (ms & AM & H). apply bind_good in H. destruct H as (de & D & H).
    injection H as <-. cbn [tc_description tc_players tc_matchups tc_competitors].
    apply competitors_spec in M.
    2:{ rewrite Forall_map. eapply Forall_impl; [|exact (PM v l GV EL)]. intros x P. exact (as_competitor_proper x P). }
    destruct M as (codes & -> & F & LE & ND & _ & IN). cbn [Z.of_nat] in AM. rewrite (all_meetings_spec en event_code _ rounds s _ (CM event_code)) in AM. injection AM as <-.
    split; [apply (base_described config at_); assumption|]. split; [exact PD|].
    assert (F' : Forall2 competitor_value l codes).
    { clear -F. remember (map as_competitor l) as l' eqn:E. revert l E. induction F as [|a b l' codes W F IH]; intros [|x l] E; try discriminate; [constructor|].
      cbn [map] in E. injection E as -> ->. constructor; [apply competitor_alike; exact W|exact (IH l eq_refl)]. }
    exists s, rounds, v, l, codes. split; [exact AG|]. split; [exact GV|]. split; [exact EL|]. split; [exact F'|].
    split; [f_equal; rewrite map_map; cbn [snd]; exact (eq_trans (map_ext _ _ (fun _ => eq_refl) _) (numbered_snd codes 0))|].
    assert (NC : codes <> []) by (intros ->; inversion F'; congruence).
    split; [exact NC|]. split; [destruct LE; [contradiction|lia]|]. split; [exact ND|]. split; [exact IN|reflexivity].
  - intros (D & PD & s & rounds & v & l & codes & AG & GV & EL & F & TC & NC & LE & ND & IN & MS).
    destruct (base_loaded config _ D) as (at_ & LB). rewrite (proj2 (competition_spec en base_settings config at_ _ PP) (conj LB PD)). cbn [sbind].
    destruct (games_loaded config s rounds AG) as (d & LD). rewrite (proj2 (load_all config d) LD). cbn [control_error sbind].
    destruct (games_exist config d LD) as (y6 & s' & rounds' & G6 & AG' & CM). destruct (games_fun _ _ _ _ _ AG AG') as [<- <-]. rewrite G6. cbn [sbind]. fold (with_rounds d y6).
    destruct (competitors_load config v l GV EL) as (sp & LS & G). rewrite LS. cbn [control_error sbind]. rewrite G. cbn [sbind list_of].
    assert (M : competitors_from_control en 0 (tc_players tc) (map as_competitor l) [] = Good (map (fun p => (letters (fst p), snd p)) (numbered 0 codes))).
    { apply competitors_spec.
      { rewrite Forall_map. eapply Forall_impl; [|exact (PM v l GV EL)]. intros x P. exact (as_competitor_proper x P). }
      exists codes. split; [reflexivity|]. split; [|split; [right; lia|split; [exact ND|split; [intros c _ []|exact IN]]]].
      clear -F. induction F as [|a b l codes W F IH]; cbn [map]; constructor; [apply competitor_alike; exact W|exact IH]. }
    assert (NL : map as_competitor l <> []) by (intros X; apply map_eq_nil in X; subst l; inversion F; congruence).
    destruct (map as_competitor l) as [|v0 l0]; [congruence|]. rewrite M. cbn [sbind]. rewrite (all_meetings_spec en event_code _ rounds s _ (CM event_code)). cbn [sbind].
    rewrite (proj2 (base_described config at_ _ LB) D). cbn [sbind]. rewrite <- MS. destruct tc as [de ps ms cs]. cbn [tc_description tc_players tc_matchups tc_competitors] in *. subst cs.
    do 3 f_equal. rewrite map_map. cbn [snd]. exact (eq_trans (map_ext _ _ (fun _ => eq_refl) _) (numbered_snd codes 0)).
Qed.
End Komi.
