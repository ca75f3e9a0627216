(** C79: the proxy for kgsGtp plays for its engine, and saves the games in new files. *)
From Verif Require Import Base Bytes PyStr Dict CommonModel GtpModel GtpSpec ControllerModel ControllerSpec ControllerProofs
  ProxyModel ProxySpec ProxyProofs RingFilesModel KgsModel KgsSpec KgsProofs KgsStartProofs KgsMainProofs.
From Verif Require SaveSpec.

(** The command line: a command must be given, and a directory for the games must exist. *)
Theorem C79_command_line :
  forall isdir sgf_dir tmpl args,
  let o := mkOptions sgf_dir tmpl in
  (args = [] -> exists m, init isdir o args = inr (Usage_error m)) /\
  (args <> [] ->
     (forall d, sgf_dir = Some d -> d <> [] -> isdir d = false ->
        init isdir o args = inr (Exit_message (str "kgs_proxy: can't find save game directory " ++ d))) /\
     ((forall d, sgf_dir = Some d -> d <> [] -> isdir d = true) ->
        exists cfg, init isdir o args = inl cfg /\ kc_command cfg = args /\
          kc_save cfg = match sgf_dir with Some (c :: r) => Some (c :: r) | _ => None end /\
          (forall t, tmpl = Some t -> t 3 <> None -> kc_template cfg = t) /\
          ((forall t, tmpl = Some t -> t 3 = None) -> kc_template cfg = default_template))).
Proof.
  intros isdir sgf_dir tmpl args o. split.
  - intros ->. eexists. reflexivity.
  - intros NE. destruct args as [|a args]; [contradiction|]. unfold init, o. cbn [o_sgf_dir o_template]. split.
    + intros d -> Nd D. destruct d as [|c r]; [contradiction|]. rewrite D. reflexivity.
    + intros D.
      exists (mkConfig (a :: args) (match tmpl with Some t => match t 3 with Some _ => t | None => default_template end | None => default_template end)
                (match sgf_dir with Some (c :: r) => Some (c :: r) | _ => None end)).
      split; [|split; [reflexivity|split; [reflexivity|split]]].
      * destruct sgf_dir as [[|c r]|]; [reflexivity| |reflexivity]. rewrite (D (c :: r) eq_refl) by discriminate. reflexivity.
      * intros t -> Nt. cbn [kc_template]. destruct (t 3); congruence.
      * intros Nt. cbn [kc_template]. destruct tmpl as [t|]; [rewrite (Nt t eq_refl)|]; reflexivity.
Qed.
Print Assumptions C79_command_line.

(** Starting.  If it succeeds: the engine was asked for its commands, then (if the games are saved) whether it
    knows gomill-savesgf, which it does, then for its name and version; nothing else was sent.  The proxy
    has the engine's commands, its own, and kgs-game_over and genmove; nothing has been played or
    logged. *)
Theorem C79_start :
  forall (X : Type) (ch : channel X) tb tbb tbk ld cfg x p e,
  start (recorded ch) tb tbb tbk ld cfg (inl (x, [])) = (p, inl e) ->
  connected p (str "back end") [] /\
  exists listing nm n,
    events p = answered (str "list_commands") [] listing ++
      match kc_save cfg with Some _ => answered (str "known_command") [str "gomill-savesgf"] (str "true") | None => [] end ++ nm /\
    naming nm n /\ px_user p = mkKgs None n O [] /\
    forall w, In w (dkeys (e_handlers e)) <->
      w = str "genmove" \/ w = str "kgs-game_over" \/ In w own_commands \/
      (is_well_formed_gtp_word w = true /\ exists line, In line (split_on char_lf listing) /\ w = strip line).
Proof.
  intros X ch tb tbb tbk ld cfg x p e St.
  destruct (start_proof ch tb tbb tbk ld cfg x p _ St) as [(l & listing & nm & evs & n & E & Il & -> & (C & Ev & Us) & N)|(e' & E & _)];
    [|discriminate].
  split; [exact C|]. exists listing, nm, n. split; [rewrite Ev; unfold is_saving; destruct (kc_save cfg); reflexivity|].
  split; [exact N|]. split; [exact Us|]. intros w. injection E as ->. rewrite <- Il.
  unfold add_kgs_commands. cbn [add_command e_handlers].
  assert (D : forall (d : dict (@GtpModel.handler (proxy (X * list cevent) kgs))) k v, In w (dkeys (dset k v d)) <-> w = k \/ In w (dkeys d)).
  { intros d k v. destruct (bytes_eqb_spec w k) as [->|Nk].
    - split; [auto|]. intros _. destruct (in_dec (list_eq_dec ascii_dec) k (dkeys (dset k v d))) as [I|I]; [exact I|].
      apply dget_None in I. rewrite dget_dset_same in I. discriminate.
    - destruct (in_dec (list_eq_dec ascii_dec) w (dkeys (dset k v d))) as [I|I].
      + split; [|auto]. intros _. right. destruct (in_dec (list_eq_dec ascii_dec) w (dkeys d)) as [I2|I2]; [exact I2|].
        exfalso. apply dget_None in I2. assert (I3 : dget w (dset k v d) = None) by (rewrite dget_dset_other by exact Nk; exact I2). apply dget_None in I3. contradiction.
      + split; [contradiction|]. intros [E|I2]; [contradiction|]. exfalso. apply dget_None in I. rewrite dget_dset_other in I by exact Nk.
        apply dget_None in I. contradiction. }
  rewrite !D. change (dkeys (e_handlers (make_engine (recorded ch) tb l))) with (dkeys (e_handlers (@make_engine _ kgs (recorded ch) tb l))).
  rewrite (make_engine_keys (recorded ch) tb l w). tauto.
Qed.
Print Assumptions C79_start.

(** If it fails, the program ends with a message: for an engine that can't be launched, a low-level error, a
    failure response to list_commands, or if the games were to be saved and the engine doesn't say that it
    knows gomill-savesgf. *)
Theorem C79_no_start :
  forall (X : Type) (ch : channel X) tb tbb tbk ld cfg launched p e,
  start (recorded ch) tb tbb tbk ld cfg launched = (p, inr e) ->
  match launched with
  | inr text => e = Exit_message (str "kgs_proxy: can't launch back end command" ++ char_lf :: text)
  | inl (x, []) => not_started (match kc_save cfg with Some _ => true | None => false end) (events p) e
  | _ => True
  end.
Proof.
  intros X ch tb tbb tbk ld cfg [[x [|ev evs]]|text] p e St; [|exact I|].
  - destruct (start_proof ch tb tbb tbk ld cfg x p _ St) as [(l & listing & nm & evs & n & E & _)|(e' & E & N)]; [discriminate|].
    injection E as ->. exact N.
  - unfold start, set_back_end_subprocess in St. apply pair_equal_spec in St as [_ E]. injection E as <-. reflexivity.
Qed.
Print Assumptions C79_no_start.

(** Whatever commands have been given, the colour remembered is that of the last genmove that had one, the
    name is still that found at the start, and the connection to the engine is open. *)
Theorem C79_remembers :
  forall (X : Type) (ch : channel X) tb tbb tbk ld cfg x p0 e cmds p,
  start (recorded ch) tb tbb tbk ld cfg (inl (x, [])) = (p0, inl e) -> session e p0 cmds p ->
  last_asked cmds (k_colour (px_user p)) /\ k_name (px_user p) = k_name (px_user p0) /\ connected p (str "back end") [].
Proof.
  intros X ch tb tbb tbk ld cfg x p0 e cmds p St Se.
  destruct (start_proof ch tb tbb tbk ld cfg x p0 _ St) as [(l & listing & nm & evs & n & E & Il & -> & (C & Ev & Us) & N)|(e' & E & _)];
    [|discriminate]. injection E as ->.
  destruct (session_remembers ch tb tbb tbk ld cfg l p0 cmds p Se ltac:(rewrite Us; reflexivity)) as (A & B & D). auto.
Qed.
Print Assumptions C79_remembers.

(** genmove: the engine is asked once with the same arguments, if the first is a colour, and its move is the
    response.  (A failure is always reported as an internal error, and never ends the session: see the
    findings.) *)
Theorem C79_genmove :
  forall (X : Type) (ch : channel X) tb tbb tbk ld cfg x p0 e cmds p args p' is_error text ended,
  start (recorded ch) tb tbb tbk ld cfg (inl (x, [])) = (p0, inl e) -> session e p0 cmds p ->
  run_command e p (str "genmove") args = (p', (is_error, text, ended)) ->
  ended = false /\
  (args = [] -> p' = p /\ is_error = true /\ text = str "invalid arguments") /\
  (forall a rest, args = a :: rest -> (forall c, ~ names_colour a c) ->
     p' = p /\ is_error = true /\ sent_as (str "invalid colour: '" ++ a ++ str "'") text) /\
  (forall a rest c, args = a :: rest -> names_colour a c ->
     exists evs, conversed p p' evs /\ k_colour (px_user p') = Some c /\ exchange (str "genmove") args evs /\
       match evs with
       | [EvSend _ _ None; EvGet (inl (false, t))] => is_error = false /\ sent_as t text
       | _ => is_error = true /\ exists m, sent_as (str "internal error" ++ char_lf :: m) text
       end).
Proof.
  intros X ch tb tbb tbk ld cfg x p0 e cmds p args p' is_error text ended St Se R.
  destruct (C79_remembers X ch tb tbb tbk ld cfg x p0 e cmds p St Se) as (_ & _ & C).
  destruct (start_proof ch tb tbb tbk ld cfg x p0 _ St) as [(l & listing & nm & evs0 & n & E & _)|(e' & E & _)]; [|discriminate].
  injection E as ->.
  destruct (genmove_proof ch tb tbb tbk ld cfg l p p' (events p) (px_user p) args is_error text ended) as (A1 & A2 & A3 & A4);
    [exact (conj C (conj eq_refl eq_refl))|exact R|].
  split; [exact A1|]. split; [exact A2|]. split.
  - intros a rest Ea Nc. destruct (A3 a rest Ea Nc) as (B1 & B2 & B3). split; [exact B1|]. split; [exact B2|]. rewrite B3. apply sent_as_clean.
  - intros a rest c Ea Nc. destruct (A4 a rest c Ea Nc) as (evs & u' & (C' & Ev' & Us') & K & Ex & M).
    exists evs. split; [|split; [congruence|auto]].
    destruct C as (c0 & Pc & _ & _ & _). destruct C' as (c1 & Pc1 & _ & _ & Cl1). exists c0, c1. split; [exact Pc|]. split; [exact Pc1|].
    unfold events in Ev'. rewrite Pc, Pc1 in Ev'. split; [exact Ev'|exact Cl1].
Qed.
Print Assumptions C79_genmove.

(** kgs-game_over, if the games aren't saved: nothing happens. *)
Theorem C79_game_over_ignored :
  forall (X : Type) (ch : channel X) tb tbb tbk ld cfg x p0 e cmds p args,
  start (recorded ch) tb tbb tbk ld cfg (inl (x, [])) = (p0, inl e) -> session e p0 cmds p -> kc_save cfg = None ->
  run_command e p (str "kgs-game_over") args = (p, (false, [], false)).
Proof.
  intros X ch tb tbb tbk ld cfg x p0 e cmds p args St Se Sv.
  destruct (start_proof ch tb tbb tbk ld cfg x p0 _ St) as [(l & listing & nm & evs0 & n & E & _)|(e' & E & _)]; [|discriminate].
  injection E as ->.
  rewrite (run_user _ p _ args _ p (GOk None) (kgs_game_over ch tb tbb tbk ld cfg l)); [reflexivity|].
  unfold handle_game_over. rewrite Sv. reflexivity.
Qed.
Print Assumptions C79_game_over_ignored.

(** kgs-game_over, if they are saved: one command is sent to the engine, to save the game as the first file
    that isn't in the directory yet, with the engine's name for the colour it has last been asked to
    play.  Whether that works or not, the response is an (empty) success, unless the command can't be
    sent at all; what went wrong is logged.  If the directory can't be read, or there is no such
    file, nothing is sent.  The session never ends. *)
Theorem C79_game_over_saves :
  forall (X : Type) (ch : channel X) tb tbb tbk ld cfg x p0 e cmds p args p' is_error text ended dir,
  start (recorded ch) tb tbb tbk ld cfg (inl (x, [])) = (p0, inl e) -> session e p0 cmds p -> kc_save cfg = Some dir ->
  run_command e p (str "kgs-game_over") args = (p', (is_error, text, ended)) ->
  ended = false /\ exists evs oc, conversed p p' evs /\ last_asked cmds oc /\
    match ld (games_over cmds) with
    | inr _ => evs = [] /\ is_error = true
    | inl existing =>
        (forall i f, free (kc_template cfg) existing i f ->
           exchange (str "gomill-savesgf") (join_path dir f :: player_option oc (k_name (px_user p0))) evs /\
           (existsb unexpected evs = false -> is_error = false /\ text = []) /\
           (existsb unexpected evs = true -> is_error = true) /\
           exists lines, save_log evs lines /\
             k_log (px_user p') = k_log (px_user p) ++ (str "kgs_proxy: saving game record to " ++ join_path dir f) :: lines) /\
        ((forall i f, ~ free (kc_template cfg) existing i f) -> evs = [] /\ is_error = true)
    end.
Proof.
  intros X ch tb tbb tbk ld cfg x p0 e cmds p args p' is_error text ended dir St Se Sv R.
  destruct (C79_remembers X ch tb tbb tbk ld cfg x p0 e cmds p St Se) as (L & Nm & C).
  destruct (start_proof ch tb tbb tbk ld cfg x p0 _ St) as [(l & listing & nm & evs0 & n & E & _ & _ & (_ & _ & Us) & _)|(e' & E & _)]; [|discriminate].
  injection E as ->.
  pose proof (session_listings ch tb tbb tbk ld cfg l p0 cmds p dir Sv Se ltac:(rewrite Us; reflexivity)) as Li.
  destruct (game_over_proof ch tb tbb tbk ld cfg l p p' (events p) (px_user p) args dir is_error text ended Sv) as (A1 & evs & u' & Hh & M);
    [exact (conj C (conj eq_refl eq_refl))|exact R|].
  split; [exact A1|]. exists evs, (k_colour (px_user p)).
  destruct Hh as (C' & Ev' & Us').
  split; [|split; [exact L|]].
  - destruct C as (c0 & Pc & _ & _ & _). destruct C' as (c1 & Pc1 & _ & _ & Cl1). exists c0, c1. split; [exact Pc|]. split; [exact Pc1|].
    unfold events in Ev'. rewrite Pc, Pc1 in Ev'. split; [exact Ev'|exact Cl1].
  - rewrite Li in M. rewrite <- Nm. rewrite Us'. destruct (ld (games_over cmds)) as [existing|x0].
    + destruct M as [M1 M2]. split; [exact M1|]. intros N. destruct (M2 N) as (Q1 & Q2 & _). auto.
    + destruct M as (Q1 & Q2 & _). auto.
Qed.
Print Assumptions C79_game_over_saves.

(** With the usual template there is such a file as long as there are fewer than 10000 in the directory, and
    there is never more than one candidate. *)
Theorem C79_room :
  forall existing, Z.of_nat (List.length existing) < 10000 -> exists i f, free default_template existing i f /\
    f = zfill 4 (str_int i) ++ str ".sgf" /\ List.length f = 8%nat.
Proof.
  intros existing L. destruct (choose_filename default_template existing) as [f|e] eqn:C.
  - apply choose_ok in C as (i & F). exists i, f. split; [exact F|]. destruct F as (R & T & _). unfold default_template in T.
    assert (Ef : f = zfill 4 (str_int i) ++ str ".sgf") by congruence. split; [exact Ef|]. rewrite Ef, app_length.
    change (List.length (str ".sgf")) with 4%nat.
    assert (List.length (zfill 4 (str_int i)) = 4%nat); [|lia].
    unfold zfill. rewrite app_length, repeat_length. pose proof (str_int_length i 4 ltac:(cbn; lia) ltac:(lia)). lia.
  - exfalso. unfold choose_filename in C. apply choose_from_err in C as [[_ A]|[_ (j & _ & T & _)]]; [|discriminate].
    pose proof (pigeons default_template existing (Z.to_nat 10000) default_inj) as P. rewrite Z2Nat.id in P by lia.
    assert (Hc : (Z.to_nat 10000 <= List.length existing)%nat).
    { apply P. intros k K. apply A. rewrite Z2Nat.id by lia. lia. }
    lia.
Qed.
Print Assumptions C79_room.

Theorem C79_one_candidate :
  forall t existing i f i' f', free t existing i f -> free t existing i' f' -> f = f'.
Proof. exact free_fun. Qed.
Print Assumptions C79_one_candidate.

(** The name is given as gomill-savesgf (C63) expects it, if there is no blank in it, and no backslash before an
    underscore. *)
Theorem C79_name_arrives :
  forall n, SaveSpec.codable n -> (forall c, In c n -> c <> " "%char) ->
  exists wb ww, player_option (Some Black) (Some n) = [wb] /\ player_option (Some White) (Some n) = [ww] /\
    SaveSpec.option_arg wb (str "PB", n) /\ SaveSpec.option_arg ww (str "PW", n).
Proof.
  intros n Co N. exists (str "PB=" ++ kgs_coded n), (str "PW=" ++ kgs_coded n). split; [reflexivity|]. split; [reflexivity|].
  rewrite <- escape_kgs, (escape_coded n N).
  split; [exists (str "PB")|exists (str "PW")]; (split; [reflexivity|]); (split; [cbn; lia|]); (split; [|split; [reflexivity|exact Co]]);
    repeat constructor.
Qed.
Print Assumptions C79_name_arrives.

(** Finding: if there is a blank in it (as in "GNU Go"), no game is ever saved once the colour is known: the
    argument can't be sent in GTP, and the response is an internal error. *)
Theorem C79_finding_blank_in_name :
  forall (X : Type) (ch : channel X) tb tbb tbk ld cfg x p0 e cmds p args p' is_error text ended dir existing i f c n,
  refuses ch ->
  start (recorded ch) tb tbb tbk ld cfg (inl (x, [])) = (p0, inl e) -> session e p0 cmds p -> kc_save cfg = Some dir ->
  ld (games_over cmds) = inl existing -> free (kc_template cfg) existing i f ->
  k_name (px_user p0) = Some n -> In " "%char n -> last_asked cmds (Some c) -> (forall oc, last_asked cmds oc -> oc = Some c) ->
  run_command e p (str "kgs-game_over") args = (p', (is_error, text, ended)) ->
  is_error = true /\ exists command words, conversed p p' [EvSend command words (Some (XOther ValueError))].
Proof.
  intros X ch tb tbb tbk ld cfg x p0 e cmds p args p' is_error text ended dir existing i f c n Rf St Se Sv Ld Fr Nm Bl _ Only R.
  destruct (C79_game_over_saves X ch tb tbb tbk ld cfg x p0 e cmds p args p' is_error text ended dir St Se Sv R)
    as (_ & evs & oc & Cv & L & M).
  rewrite Ld in M. destruct M as [M _]. destruct (M i f Fr) as (Ex & _ & Bad & _).
  assert (oc = Some c) by (apply Only; exact L). subst oc. rewrite Nm in Ex.
  assert (W : sendable (str "gomill-savesgf") (join_path dir f :: player_option (Some c) (Some n)) = false).
  { unfold sendable. cbn [forallb].
    assert (B : forallb is_well_formed_gtp_word (player_option (Some c) (Some n)) = false).
    { destruct c; cbn [player_option forallb]; rewrite space_not_word; try reflexivity; apply in_or_app; right;
        rewrite <- escape_kgs; apply escape_keeps_space; exact Bl. }
    rewrite B, !andb_false_r. reflexivity. }
  assert (Q : evs = [EvSend (str "gomill-savesgf") (join_path dir f :: player_option (Some c) (Some n)) (Some (XOther ValueError))]).
  { clear - Rf St Se R Sv Ld Fr Ex W Cv Nm L Only.
    destruct (start_proof ch tb tbb tbk ld cfg x p0 _ St) as [(l & listing & nm & evs0 & n0 & E & _ & _ & (C0 & _ & Us) & _)|(e' & E & _)]; [|discriminate].
    injection E as ->.
    destruct (session_remembers ch tb tbb tbk ld cfg l p0 cmds p Se ltac:(rewrite Us; reflexivity)) as (L2 & Nm2 & D).
    pose proof (session_listings ch tb tbb tbk ld cfg l p0 cmds p dir Sv Se ltac:(rewrite Us; reflexivity)) as Li.
    specialize (D _ _ C0). destruct D as (c1 & Pc1 & Nc1 & Al1 & Cl1).
    destruct (handle_game_over (recorded ch) tb ld cfg p args) as [p1 r1] eqn:G.
    rewrite (run_user _ p _ args _ p1 r1 (kgs_game_over ch tb tbb tbk ld cfg l) G) in R.
    apply pair_equal_spec in R as [-> _].
    unfold handle_game_over in G. rewrite Sv, Li, Ld in G.
    rewrite (proj2 (choose_ok _ _ _) (ex_intro _ i Fr)) in G.
    assert (Sa : save_arguments (px_user (map_user (X:=X * list cevent) (logged (str "kgs_proxy: saving game record to " ++ join_path dir f)) (map_user listed p))) (join_path dir f)
      = join_path dir f :: player_option (Some c) (Some n)).
    { apply save_arguments_spec; cbn [map_user px_user logged listed k_colour k_name]; [apply Only; exact L2|congruence]. }
    rewrite Sa in G. unfold handle_command, pass_command in G. cbn [map_user px_back px_user] in G. rewrite Pc1 in G.
    unfold ControllerModel.do_command in G. rewrite Cl1 in G. cbv zeta in G. rewrite Al1 in G.
    change (translate [] (str "gomill-savesgf")) with (str "gomill-savesgf") in G. cbn [recorded ch_send] in G.
    rewrite (Rf _ _ _ W) in G. cbv iota beta in G.
    assert (P1 : exists c2, px_back p' = Some c2 /\ trace c2 = trace c1 ++ [EvSend (str "gomill-savesgf") (join_path dir f :: player_option (Some c) (Some n)) (Some (XOther ValueError))]).
    { apply pair_equal_spec in G as [<- _]. eexists. split; [reflexivity|]. reflexivity. }
    destruct P1 as (c2 & Pc2 & T2). destruct Cv as (d & d' & Pd & Pd' & T & _).
    assert (d = c1) by congruence. assert (d' = c2) by congruence. subst d d'. rewrite T2 in T. apply app_inv_head in T. symmetry. exact T. }
  split; [apply Bad; rewrite Q; reflexivity|]. rewrite Q in Cv. eauto.
Qed.
Print Assumptions C79_finding_blank_in_name.

(** ** A session *)

(** An engine whose state is what it was asked to save. *)
Definition demo (name : string) : engine (list (list bytes)) :=
  add_command (add_command (add_command (add_command (add_protocol_commands new_engine)
    (str "name") (User (fun s _ => (s, GOk (Some (str name))))))
    (str "version") (User (fun s _ => (s, GOk (Some (str "pythia  1.2. Please read http://example.org/"))))))
    (str "genmove") (User (fun s _ => (s, GOk (Some (str "D4"))))))
    (str "gomill-savesgf") (User (fun s a => (s ++ [a], GOk None))).
Definition demo_cfg (d : option bytes) : config := mkConfig [str "demo"] default_template d.
Definition demo_ld (n : nat) : list bytes + exn :=
  match n with O => inl [str "0000.sgf"; str "x"] | 1%nat => inl [str "0001.sgf"; str "0000.sgf"] | _ => inr standard_error end.
Definition demo_start (name : string) (d : option bytes) :=
  start (recorded (internal_channel (demo name))) (fun _ => str "oops") (fun m => m) (fun m => m) demo_ld (demo_cfg d)
    (inl (new_internal [], [])).
Fixpoint demo_play {S : Type} (e : engine S) (s : S) (cmds : list (bytes * list bytes)) : S * list (bool * bytes * bool) :=
  match cmds with
  | [] => (s, [])
  | (c, a) :: rest => let (s', r) := run_command e s c a in let (s'', rs) := demo_play e s' rest in (s'', r :: rs)
  end.
Definition demo_saved (p : proxy (internal (list (list bytes)) * list cevent) kgs) : list (list bytes) :=
  match px_back p with Some c => i_state (fst (c_chan c)) | None => [] end.

Lemma demo_session {S : Type} (e : engine S) p cmds : forall p1 done, session e p done p1 ->
  session e p (done ++ cmds) (fst (demo_play e p1 cmds)).
Proof.
  induction cmds as [|[c a] cmds IH]; intros p1 done H; cbn [demo_play].
  - rewrite app_nil_r. exact H.
  - destruct (run_command e p1 c a) as [p2 r] eqn:R. specialize (IH p2 (done ++ [(c, a)]) (se_more _ _ _ _ _ _ _ _ H R)).
    destruct (demo_play e p2 cmds) as [p3 rs]. cbn [fst] in *. rewrite <- app_assoc in IH. exact IH.
Qed.

(** What can be seen of a session: the name, what was saved, the responses, the log. *)
Definition demo_run (name : string) (d : option bytes) (cmds : list (bytes * list bytes)) :=
  match demo_start name d with
  | (p0, inl e) => let (p, rs) := demo_play e p0 cmds in Some (k_name (px_user p0), demo_saved p, rs, k_log (px_user p))
  | _ => None
  end.

(** Two games; the colour changes; the third time the directory can't be read. *)
Example C79_example :
  demo_run "Pythia" (Some (str "/games"))
    [(str "genmove", [str "B"]); (str "kgs-game_over", []);
     (str "genmove", [str "white"]); (str "genmove", [str "x"]); (str "kgs-game_over", []); (str "kgs-game_over", [])] =
  Some (Some (str "Pythia:1.2"),
        [[str "/games/0001.sgf"; str "PB=Pythia:1.2"]; [str "/games/0002.sgf"; str "PW=Pythia:1.2"]],
        [(false, str "D4", false); (false, [], false); (false, str "D4", false); (true, str "invalid colour: 'x'", false);
         (false, [], false); (true, str "internal error" ++ char_lf :: str "oops", false)],
        [str "kgs_proxy: saving game record to /games/0001.sgf"; str "kgs_proxy: saving game record to /games/0002.sgf"]).
Proof. vm_compute. reflexivity. Qed.

(** An engine whose name has a blank. *)
Example C79_example_blank :
  refuses (internal_channel (demo "Py thia")) /\
  demo_run "Py thia" (Some (str "/games")) [(str "genmove", [str "B"]); (str "kgs-game_over", [])] =
  Some (Some (str "Py thia:pythia  1.2"), [], [(false, str "D4", false); (true, str "internal error" ++ char_lf :: str "oops", false)],
        [str "kgs_proxy: saving game record to /games/0001.sgf"]).
Proof.
  split.
  - intros x command args H. cbn [internal_channel ch_send]. unfold internal_send. rewrite H. reflexivity.
  - vm_compute. reflexivity.
Qed.

Example C79_example_room : free default_template [str "0001.sgf"; str "0000.sgf"] 2 (str "0002.sgf").
Proof.
  split; [lia|]. split; [reflexivity|]. split; [cbn; intuition discriminate|].
  intros j J. assert (j = 0 \/ j = 1) as [-> | ->] by lia; eexists; (split; [reflexivity|]); cbn; auto.
Qed.
