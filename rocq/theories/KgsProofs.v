(** Lemmas about the kgsGtp proxy. *)
From Verif Require Import Base Bytes PyStr Dict CommonModel GtpModel GtpSpec ControllerModel ControllerSpec ControllerProofs
  ProxyModel ProxySpec ProxyProofs RingFilesModel KgsModel KgsSpec.
From Verif Require EngineModel EngineSpec EngineProofs SettingsProofs SaveModel SaveSpec SaveProofs.

(** ** Filenames *)

Lemma existsb_names f l : existsb (bytes_eqb f) l = true <-> In f l.
Proof.
  rewrite existsb_exists. split.
  - intros (x & I & E). destruct (bytes_eqb_spec f x) as [->|]; [exact I|discriminate].
  - intros I. exists f. split; [exact I|apply bytes_eqb_refl].
Qed.

Lemma choose_from_ok t existing n : forall i f, choose_from t existing i n = Ok f ->
  exists j, i <= j < i + Z.of_nat n /\ t j = Some f /\ ~ In f existing /\
    forall k, i <= k < j -> exists g, t k = Some g /\ In g existing.
Proof.
  induction n as [|n IH]; intros i f H; cbn [choose_from] in H; [discriminate|].
  destruct (t i) as [g|] eqn:T; [|discriminate].
  destruct (existsb (bytes_eqb g) existing) eqn:E.
  - destruct (IH _ _ H) as (j & R & Tj & N & F). exists j. split; [lia|]. split; [exact Tj|]. split; [exact N|].
    intros k K. destruct (Z.eq_dec k i) as [->|D]; [exists g; split; [exact T|apply existsb_names; exact E]|].
    apply F. lia.
  - assert (f = g) by congruence. subst g. exists i. split; [lia|]. split; [exact T|].
    split; [intros I; apply existsb_names in I; congruence|]. intros k K. lia.
Qed.

Lemma choose_from_err t existing n : forall i e, choose_from t existing i n = Err e ->
  (e = standard_error /\ forall k, i <= k < i + Z.of_nat n -> exists g, t k = Some g /\ In g existing) \/
  (e = TypeError /\ exists j, i <= j < i + Z.of_nat n /\ t j = None /\ forall k, i <= k < j -> exists g, t k = Some g /\ In g existing).
Proof.
  induction n as [|n IH]; intros i e H; cbn [choose_from] in H.
  - left. split; [congruence|]. intros k K. lia.
  - destruct (t i) as [g|] eqn:T.
    + destruct (existsb (bytes_eqb g) existing) eqn:E; [|discriminate].
      assert (G : exists g, t i = Some g /\ In g existing) by (exists g; split; [exact T|apply existsb_names; exact E]).
      destruct (IH _ _ H) as [[-> F]|[-> (j & R & Tj & F)]].
      * left. split; [reflexivity|]. intros k K. destruct (Z.eq_dec k i) as [->|D]; [exact G|]. apply F. lia.
      * right. split; [reflexivity|]. exists j. split; [lia|]. split; [exact Tj|].
        intros k K. destruct (Z.eq_dec k i) as [->|D]; [exact G|]. apply F. lia.
    + right. split; [congruence|]. exists i. split; [lia|]. split; [exact T|]. intros k K. lia.
Qed.

Lemma default_inj i j f : 0 <= i -> 0 <= j -> default_template i = Some f -> default_template j = Some f -> i = j.
Proof.
  unfold default_template. intros Hi Hj A B.
  assert (E : zfill 4 (str_int i) ++ str ".sgf" = zfill 4 (str_int j) ++ str ".sgf") by congruence.
  apply app_inv_tail in E. exact (zfill_inj 4 i j Hi Hj E).
Qed.

(** If every number below [n] has a filename in the directory, the directory has [n] files. *)
Lemma pigeons (t : template) existing n :
  (forall i j f, 0 <= i -> 0 <= j -> t i = Some f -> t j = Some f -> i = j) ->
  (forall k, 0 <= k < Z.of_nat n -> exists g, t k = Some g /\ In g existing) ->
  (n <= List.length existing)%nat.
Proof.
  intros Inj All.
  assert (H : exists l, List.length l = n /\ NoDup l /\ incl l existing /\
    forall x, In x l -> exists k, 0 <= k < Z.of_nat n /\ t k = Some x).
  { induction n as [|n IH].
    - exists []. split; [reflexivity|]. split; [constructor|]. split; [intros x []|intros x []].
    - destruct IH as (l & L & ND & Inc & K).
      { intros k Hk. apply All. lia. }
      destruct (All (Z.of_nat n)) as (g & T & I); [lia|].
      exists (g :: l). split; [cbn [List.length]; lia|]. split; [|split].
      + constructor; [|exact ND]. intros I'. destruct (K _ I') as (k & Hk & Tk).
        assert (k = Z.of_nat n) by (apply (Inj _ _ g); [lia|lia|exact Tk|exact T]). lia.
      + intros x [<-|I']; [exact I|exact (Inc _ I')].
      + intros x [<-|I']; [exists (Z.of_nat n); split; [lia|exact T]|].
        destruct (K _ I') as (k & Hk & Tk). exists k. split; [lia|exact Tk]. }
  destruct H as (l & <- & ND & Inc & _). exact (NoDup_incl_length ND Inc).
Qed.

(** ** Names *)

Lemma rstrip_blanks s : exists white, s = rstrip s ++ white /\ EngineSpec.blanks white.
Proof.
  unfold rstrip. destruct (SettingsProofs.lstrip_suffix (rev s)) as (w & E & F).
  exists (rev w). split.
  - rewrite <- rev_app_distr, <- E, rev_involutive. reflexivity.
  - unfold EngineSpec.blanks. apply Forall_forall. intros x I. rewrite forallb_forall in F. apply F. apply in_rev. exact I.
Qed.

Lemma rstrip_last s a c : rstrip s = a ++ [c] -> is_space c = false.
Proof.
  unfold rstrip. intros H. apply (f_equal (@rev ascii)) in H. rewrite rev_involutive, rev_app_distr in H. cbn [rev app] in H.
  exact (SettingsProofs.lstrip_head _ _ _ H).
Qed.

Lemma shorten_spec name version : short_version name version (shorten_version name version).
Proof.
  unfold short_version, shorten_version.
  set (v := EngineModel.without_name (Some name) version).
  pose proof (EngineProofs.without_name_spec (Some name) version) as N.
  set (u := match EngineModel.before_first (str ". Please read http:") v with Some a => a | None => v end).
  destruct (rstrip_blanks (firstn 32 u)) as (white & E & B).
  exists v, u, white. split; [exact N|]. split.
  - unfold u. destruct (EngineModel.before_first (str ". Please read http:") v) as [a|] eqn:F.
    + left. exact (EngineProofs.before_some _ _ _ F).
    + right. split; [exact (EngineProofs.before_none _ _ F)|reflexivity].
  - split; [exact E|]. split; [exact B|]. intros a c. apply rstrip_last.
Qed.

Lemma shorten_length name version : (List.length (shorten_version name version) <= 32)%nat.
Proof.
  unfold shorten_version. set (u := match EngineModel.before_first _ _ with Some a => a | None => _ end).
  destruct (rstrip_blanks (firstn 32 u)) as (white & E & _).
  apply (f_equal (@List.length ascii)) in E. rewrite app_length in E. pose proof (firstn_le_length 32 u). lia.
Qed.

(** ** Escaping *)

Lemma escape_coded n : (forall c, In c n -> c <> " "%char) -> escape_for_savesgf n = SaveSpec.coded n.
Proof.
  unfold escape_for_savesgf, replace_char. induction n as [|c n IH]; intros N; [reflexivity|].
  cbn [map List.concat SaveSpec.coded]. rewrite map_app, concat_app, IH by (intros x I; apply N; right; exact I). f_equal.
  unfold char_bs, char_sp. destruct (ceqb c "\"%char) eqn:E; [reflexivity|].
  assert (c <> " "%char) by (apply N; left; reflexivity).
  cbn [map List.concat app]. destruct (ceqb_spec c " "%char) as [->|_]; [contradiction|]. reflexivity.
Qed.

Lemma escape_keeps_space n : In " "%char n -> In " "%char (escape_for_savesgf n).
Proof.
  intros I. unfold escape_for_savesgf, replace_char. apply in_concat. exists [char_bs; char_sp]. split; [|right; left; reflexivity].
  apply in_map_iff. exists " "%char. split; [reflexivity|].
  apply in_concat. exists [" "%char]. split; [|left; reflexivity]. apply in_map_iff. exists " "%char. split; [reflexivity|exact I].
Qed.

Lemma space_not_word s : In " "%char s -> is_well_formed_gtp_word s = false.
Proof.
  intros I. destruct s as [|c s]; [destruct I|]. unfold is_well_formed_gtp_word.
  destruct (forallb GtpModel.word_char (c :: s)) eqn:F; [|reflexivity]. rewrite forallb_forall in F. specialize (F _ I). discriminate F.
Qed.

(** ** Colours *)

Lemma names_interpret w c : names_colour w c <-> interpret_colour w = GOk c.
Proof.
  unfold interpret_colour, names_colour.
  destruct (bytes_eqb_spec (map lower_char w) (str "w")) as [E1|N1];
  destruct (bytes_eqb_spec (map lower_char w) (str "white")) as [E2|N2];
  destruct (bytes_eqb_spec (map lower_char w) (str "b")) as [E3|N3];
  destruct (bytes_eqb_spec (map lower_char w) (str "black")) as [E4|N4]; cbn [orb];
  destruct c; split; intros H; try tauto; try reflexivity; try discriminate H;
  try (exfalso; destruct H as [H|H]; rewrite H in *; (discriminate || congruence)).
Qed.

Lemma interpret_other w : (forall c, ~ names_colour w c) -> interpret_colour w = GError (str "invalid colour: '" ++ w ++ str "'").
Proof.
  intros N. pose proof (fun c => proj2 (names_interpret w c)) as H. revert H. unfold interpret_colour.
  destruct (bytes_eqb _ _ || bytes_eqb _ _); [intros H; elim (N White); apply H; reflexivity|].
  destruct (bytes_eqb _ _ || bytes_eqb _ _); [intros H; elim (N Black); apply H; reflexivity|]. reflexivity.
Qed.

Section Kgs.
Context {X : Type}.
Variable ch : channel X.
Variables (tb : exn -> bytes) (tbb tbk : bytes -> bytes) (ld : nat -> list bytes + exn) (cfg : config).
Notation PX := (proxy (X * list cevent) kgs).
Notation E0 := (make_engine (recorded ch) tb).
Notation KE l := (add_kgs_commands (recorded ch) tb tbb tbk ld cfg (E0 l)).

Lemma kgs_genmove l : dget (str "genmove") (e_handlers (KE l)) = Some (User (handle_genmove (recorded ch) tb tbb tbk)).
Proof. unfold add_kgs_commands. cbn [add_command e_handlers]. rewrite dget_dset_other by discriminate. apply dget_dset_same. Qed.
Lemma kgs_game_over l : dget (str "kgs-game_over") (e_handlers (KE l)) = Some (User (handle_game_over (recorded ch) tb ld cfg)).
Proof. unfold add_kgs_commands. cbn [add_command e_handlers]. apply dget_dset_same. Qed.
Lemma kgs_fatal l : e_fatal (KE l) = false.
Proof.
  cbn [add_kgs_commands add_command e_fatal make_engine add_protocol_commands].
  unfold add_back_end_commands. assert (H : forall (e : engine PX) m, e_fatal e = false ->
    e_fatal (fold_left (fun e command => add_command e command (back_end_handler (recorded ch) tb command)) m e) = false).
  { intros e m. revert e. induction m as [|a m IH]; intros e H; [exact H|]. cbn [fold_left]. apply IH. exact H. }
  apply H. reflexivity.
Qed.
Lemma kgs_customised l : customised (E0 l) [str "kgs-game_over"; str "genmove"] (KE l).
Proof. unfold add_kgs_commands. apply cu_add. apply cu_add. apply cu_none. Qed.

(** What never changes: the user's part under [pass_command]. *)
Lemma pass_user (p : PX) command args p' r : pass_command (recorded ch) p command args = (p', r) -> px_user p' = px_user p.
Proof.
  unfold pass_command. destruct (px_back p) as [c|]; [|intros H; congruence].
  destruct (ControllerModel.do_command (recorded ch) c command args) as [c' r']. intros H. injection H as <- _. reflexivity.
Qed.
Lemma handle_user (p : PX) command args p' r : handle_command (recorded ch) tb p command args = (p', r) -> px_user p' = px_user p.
Proof.
  unfold handle_command. destruct (pass_command (recorded ch) p command args) as [p1 r1] eqn:P. intros H.
  assert (p1 = p') by congruence. subst. exact (pass_user _ _ _ _ _ P).
Qed.
Lemma quit_user (p : PX) args p' r : handle_quit (recorded ch) tb p args = (p', r) -> px_user p' = px_user p.
Proof.
  unfold handle_quit. destruct (pass_command (recorded ch) p (str "quit") []) as [p1 r1] eqn:P. apply pass_user in P.
  assert (U : forall q : PX, px_user (fst (expect_back_end_exit q)) = px_user q).
  { intros q. unfold expect_back_end_exit. destruct (px_back q); reflexivity. }
  destruct r1 as [t|m|m [[[]|]|]|k m|e]; intros H; apply pair_equal_spec in H as [<- _]; rewrite ?U; exact P.
Qed.

(** The connection stays. *)
Lemma pass_connected (p : PX) name aliases command args p' r : connected p name aliases ->
  pass_command (recorded ch) p command args = (p', r) -> connected p' name aliases.
Proof.
  intros C P. destruct (pass_proof ch p p' name aliases command args r C P) as (evs & T & _).
  destruct C as (c & Pc & Nm & Al & Cl). destruct T as (c0 & c' & P0 & P' & _ & _ & Cl' & Nm' & Al' & _).
  assert (c0 = c) by congruence. subst c0. exists c'. repeat split; congruence.
Qed.
Lemma map_connected f (p : PX) name aliases : connected p name aliases -> connected (map_user f p) name aliases.
Proof. intros (c & H). exists c. exact H. Qed.
Lemma quit_connected (p : PX) name aliases args p' r : connected p name aliases ->
  handle_quit (recorded ch) tb p args = (p', r) -> connected p' name aliases.
Proof.
  intros C. unfold handle_quit. destruct (pass_command (recorded ch) p (str "quit") []) as [p1 r1] eqn:P.
  pose proof (pass_connected _ _ _ _ _ _ _ C P) as C1.
  assert (U : connected (fst (expect_back_end_exit p1)) name aliases).
  { destruct C1 as (c & Pc & A). unfold expect_back_end_exit. rewrite Pc. exists (set_bad c). exact (conj eq_refl A). }
  destruct r1 as [t|m|m [[[]|]|]|k m|e]; intros H; apply pair_equal_spec in H as [<- _]; assumption.
Qed.
Lemma handle_connected (p : PX) name aliases command args p' r : connected p name aliases ->
  handle_command (recorded ch) tb p command args = (p', r) -> connected p' name aliases.
Proof.
  intros C. unfold handle_command. destruct (pass_command (recorded ch) p command args) as [p1 r1] eqn:P. intros H.
  assert (p1 = p') by congruence. subst. exact (pass_connected _ _ _ _ _ _ _ C P).
Qed.

(** What one command does to what is remembered. *)
Definition asked (command : bytes) (args : list bytes) : option colour :=
  if bytes_eqb command (str "genmove")
  then match args with a :: _ => match interpret_colour a with GOk c => Some c | _ => None end | [] => None end
  else None.

Lemma genmove_user (p : PX) args p' r : handle_genmove (recorded ch) tb tbb tbk p args = (p', r) ->
  px_user p' = match asked (str "genmove") args with Some c => with_colour c (px_user p) | None => px_user p end.
Proof.
  unfold handle_genmove, asked. change (bytes_eqb (str "genmove") (str "genmove")) with true. cbv iota.
  destruct args as [|a rest]; [intros H; congruence|].
  destruct (interpret_colour a) as [c|m|m|m|m]; intros H; try congruence.
  destruct (pass_command (recorded ch) (map_user (with_colour c) p) (str "genmove") (a :: rest)) as [p1 r1] eqn:P.
  apply pass_user in P. assert (p1 = p') by congruence. subst. exact P.
Qed.

Lemma game_over_user (p : PX) args p' r : handle_game_over (recorded ch) tb ld cfg p args = (p', r) ->
  k_colour (px_user p') = k_colour (px_user p) /\ k_name (px_user p') = k_name (px_user p).
Proof.
  unfold handle_game_over. destruct (kc_save cfg) as [dir|]; [|intros H; assert (p' = p) by congruence; subst; split; reflexivity].
  destruct (ld (k_listings (px_user p))) as [existing|e].
  2:{ intros H. apply pair_equal_spec in H as [<- _]. split; reflexivity. }
  destruct (choose_filename (kc_template cfg) existing) as [f|e].
  2:{ intros H. apply pair_equal_spec in H as [<- _]. split; reflexivity. }
  destruct (handle_command (recorded ch) tb _ _ _) as [p3 r3] eqn:Hc. apply handle_user in Hc.
  destruct r3; intros H; apply pair_equal_spec in H as [<- _]; unfold map_user; cbn [px_user]; rewrite Hc; split; reflexivity.
Qed.

Lemma game_over_connected (p : PX) name aliases args p' r : connected p name aliases ->
  handle_game_over (recorded ch) tb ld cfg p args = (p', r) -> connected p' name aliases.
Proof.
  intros C. unfold handle_game_over. destruct (kc_save cfg) as [dir|]; [|intros H; assert (p' = p) by congruence; subst; assumption].
  destruct (ld (k_listings (px_user p))) as [existing|e].
  2:{ intros H. apply pair_equal_spec in H as [<- _]. exact C. }
  destruct (choose_filename (kc_template cfg) existing) as [f|e].
  2:{ intros H. apply pair_equal_spec in H as [<- _]. exact C. }
  destruct (handle_command (recorded ch) tb _ _ _) as [p3 r3] eqn:Hc.
  apply (handle_connected _ name aliases) in Hc; [|exact C].
  destruct r3; intros H; apply pair_equal_spec in H as [<- _]; exact Hc.
Qed.

Lemma genmove_connected (p : PX) name aliases args p' r : connected p name aliases ->
  handle_genmove (recorded ch) tb tbb tbk p args = (p', r) -> connected p' name aliases.
Proof.
  intros C. unfold handle_genmove. destruct args as [|a rest]; [intros H; assert (p' = p) by congruence; subst; assumption|].
  destruct (interpret_colour a) as [c|m|m|m|m]; intros H; try (assert (p' = p) by congruence; subst; assumption).
  destruct (pass_command (recorded ch) (map_user (with_colour c) p) (str "genmove") (a :: rest)) as [p1 r1] eqn:P.
  apply (pass_connected _ name aliases) in P; [|exact C]. assert (p1 = p') by congruence. subst. exact P.
Qed.

(** One command, by the engine. *)
Lemma run_remembers l (p : PX) command args p' reply : run_command (KE l) p command args = (p', reply) ->
  k_colour (px_user p') = match asked command args with Some c => Some c | None => k_colour (px_user p) end /\
  k_name (px_user p') = k_name (px_user p) /\
  (forall name aliases, connected p name aliases -> connected p' name aliases).
Proof.
  intros R. unfold run_command in R. destruct (GtpModel.do_command (KE l) p command args) as [p1 r1] eqn:D.
  assert (p1 = p') by congruence. subst p1. clear R. unfold GtpModel.do_command in D.
  destruct (bytes_eqb_spec command (str "genmove")) as [->|NG].
  - rewrite kgs_genmove in D. cbn [call_handler] in D.
    destruct (handle_genmove (recorded ch) tb tbb tbk p args) as [p2 r2] eqn:G. assert (p2 = p') by congruence. subst p2.
    split; [|split].
    + rewrite (genmove_user _ _ _ _ G). destruct (asked (str "genmove") args); reflexivity.
    + rewrite (genmove_user _ _ _ _ G). destruct (asked (str "genmove") args); reflexivity.
    + intros name aliases C. exact (genmove_connected _ _ _ _ _ _ C G).
  - assert (As : asked command args = None).
    { unfold asked. destruct (bytes_eqb_spec command (str "genmove")); [contradiction|reflexivity]. }
    rewrite As. destruct (bytes_eqb_spec command (str "kgs-game_over")) as [->|NK].
    + rewrite kgs_game_over in D. cbn [call_handler] in D.
      destruct (handle_game_over (recorded ch) tb ld cfg p args) as [p2 r2] eqn:G. assert (p2 = p') by congruence. subst p2.
      destruct (game_over_user _ _ _ _ G) as [A B]. split; [exact A|]. split; [exact B|].
      intros name aliases C. exact (game_over_connected _ _ _ _ _ _ C G).
    + rewrite (customised_get _ _ _ command (kgs_customised l)) in D by (cbn [In]; intuition congruence).
      rewrite make_engine_get in D.
      repeat match type of D with context [if bytes_eqb command ?k then _ else _] =>
        destruct (bytes_eqb_spec command k) as [->|?] end; cbn [call_handler] in D.
      * destruct (handle_passthrough (recorded ch) tb p args) as [p2 r2] eqn:G. assert (p2 = p') by congruence. subst p2.
        unfold handle_passthrough in G. destruct args as [|w rest].
        -- assert (p = p') by congruence. subst. auto.
        -- pose proof (handle_user _ _ _ _ _ G) as U. rewrite U. split; [reflexivity|]. split; [reflexivity|].
           intros name aliases C. exact (handle_connected _ _ _ _ _ _ _ C G).
      * destruct (handle_quit (recorded ch) tb p args) as [p2 r2] eqn:G. assert (p2 = p') by congruence. subst p2.
        pose proof (quit_user _ _ _ _ G) as U. rewrite U. split; [reflexivity|]. split; [reflexivity|].
        intros name aliases C. exact (quit_connected _ _ _ _ _ _ C G).
      * assert (p = p') by congruence. subst. auto.
      * assert (p = p') by congruence. subst. auto.
      * assert (p = p') by congruence. subst. auto.
      * destruct (in_dec (list_eq_dec ascii_dec) command l); cbn [call_handler back_end_handler] in D.
        -- destruct (handle_command (recorded ch) tb p command args) as [p2 r2] eqn:G. assert (p2 = p') by congruence. subst p2.
           pose proof (handle_user _ _ _ _ _ G) as U. rewrite U. split; [reflexivity|]. split; [reflexivity|].
           intros name aliases C. exact (handle_connected _ _ _ _ _ _ _ C G).
        -- assert (p = p') by congruence. subst. auto.
Qed.

Lemma asked_spec command args : match asked command args with
  | Some c => command = str "genmove" /\ exists a rest, args = a :: rest /\ names_colour a c
  | None => ~ (command = str "genmove" /\ exists a rest c, args = a :: rest /\ names_colour a c) end.
Proof.
  unfold asked. destruct (bytes_eqb_spec command (str "genmove")) as [->|N]; [|intros [E _]; contradiction].
  destruct args as [|a rest]; [intros (_ & a & rest & c & E & _); discriminate|].
  destruct (interpret_colour a) as [c|m|m|m|m] eqn:I;
    try (intros (_ & a' & rest' & c' & E & Nm); injection E as <- <-; apply names_interpret in Nm; congruence).
  split; [reflexivity|]. exists a, rest. split; [reflexivity|apply names_interpret; exact I].
Qed.

(** Over a session. *)
Lemma session_remembers l (p : PX) cmds p' : session (KE l) p cmds p' -> k_colour (px_user p) = None ->
  last_asked cmds (k_colour (px_user p')) /\ k_name (px_user p') = k_name (px_user p) /\
  (forall name aliases, connected p name aliases -> connected p' name aliases).
Proof.
  intros H N. induction H as [|cmds p1 command args p2 reply S1 IH R].
  - rewrite N. split; [constructor|]. auto.
  - destruct IH as (L & Nm & C). destruct (run_remembers l p1 command args p2 reply R) as (A & B & D).
    split; [|split; [congruence|auto]].
    pose proof (asked_spec command args) as As. rewrite A. destruct (asked command args) as [c|].
    + destruct As as (-> & a & rest & -> & Nc). eapply la_asked; eassumption.
    + apply la_other; assumption.
Qed.

End Kgs.
