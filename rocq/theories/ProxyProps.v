(** C64: a proxy engine answers as its back end does. *)
From Verif Require Import Base Bytes PyStr Dict CommonModel SgfPropsModel GtpModel GtpSpec GtpProofs GtpChannelProofs GtpSessionProofs
  ControllerModel ControllerSpec ControllerProofs ProxyModel ProxySpec ProxyProofs ProxyRunProofs ProxyTalkProofs.

(** Setting the back end: it is asked once for its commands.  If it answers, the new engine has exactly
    those commands (the lines of the answer that can be commands) and five of its own; if not, there
    is a BackEndError with the reason. *)
Theorem C64_set_back_end :
  forall (X U : Type) (ch : channel X) tb (p p' : proxy (X * list cevent) U) c r,
  px_back p = None -> c_closed c = false ->
  set_back_end_controller (recorded ch) tb p c = (p', r) ->
  exists c' evs, px_back p' = Some c' /\ px_user p' = px_user p /\ trace c' = trace c ++ evs /\ c_closed c' = false /\
    exchange (meaning (c_aliases c) (str "list_commands")) [] evs /\
    match evs with
    | [EvSend _ _ None; EvGet (inl (false, text))] =>
        exists e, r = PRet e /\
        forall w, In w (dkeys (e_handlers e)) <->
          In w own_commands \/
          (is_well_formed_gtp_word w = true /\ exists line, In line (split_on char_lf text) /\ w = strip line)
    | [EvSend _ _ None; EvGet (inl (true, t))] => exists msg, r = PBack msg (Some By_response) /\ message_about (c_name c) msg t
    | [EvSend _ _ (Some (XChan k t))] | [EvSend _ _ None; EvGet (inr (XChan k t))] =>
        exists msg, r = PBack msg (Some (By_channel k)) /\ message_about (c_name c) msg t
    | [EvSend _ _ (Some (XOther e))] | [EvSend _ _ None; EvGet (inr (XOther e))] => r = PRaise e
    | _ => False
    end.
Proof.
  intros X U ch tb p p' c r Pn Cl H.
  destruct (set_back_end_proof ch tb p p' c r Pn Cl H) as (c' & evs & A1 & A2 & A3 & A4 & _ & _ & _ & _ & A5 & A6).
  exists c', evs. do 5 (split; [assumption|]).
  inversion A5 as [[k t|e]|[[[|] t]|[k t|e]]]; subst evs; try exact A6.
  destruct A6 as (commands & -> & I). eexists. split; [reflexivity|]. intros w. rewrite make_engine_keys, I. reflexivity.
Qed.
Print Assumptions C64_set_back_end.

(** A second back end is refused. *)
Theorem C64_one_back_end :
  forall (X U : Type) (ch : channel X) tb (p : proxy X U) c c',
  px_back p = Some c -> set_back_end_controller ch tb p c' = (p, PRaise standard_error).
Proof. intros X U ch tb p c c' H. unfold set_back_end_controller. rewrite H. reflexivity. Qed.
Print Assumptions C64_one_back_end.

(** A command that the back end has, however the proxy has been customised with other commands: it is
    sent once to the back end, with the same arguments, and the answer is passed on; a low-level error
    ends the session with a failure response that has the reason. *)
Theorem C64_commands_are_passed_on :
  forall (X U : Type) (ch : channel X) tb (p0 p1 : proxy (X * list cevent) U) c0 e0 names e p p' name aliases command args is_error text ended,
  set_back_end_controller (recorded ch) tb p0 c0 = (p1, PRet e0) -> customised e0 names e ->
  connected p name aliases ->
  In command (dkeys (e_handlers e0)) -> ~ In command own_commands -> ~ In command names ->
  run_command e p command args = (p', (is_error, text, ended)) ->
  exists evs, talked p p' evs /\ exchange (meaning aliases command) args evs /\
    relayed name (e_fatal e) evs is_error text ended.
Proof.
  intros X U ch tb p0 p1 c0 e0 names e p p' name aliases command args is_error text ended St Cu C I NO NN R.
  assert (exists commands, e0 = make_engine (recorded ch) tb commands) as (commands & ->).
  { unfold set_back_end_controller in St. destruct (px_back p0); [discriminate St|].
    destruct (list_commands (recorded ch) c0) as [c' [l| | |]]; try discriminate St. exists l. congruence. }
  apply make_engine_keys in I. destruct I as [I|I]; [contradiction|].
  destruct (forward_proof ch tb commands names e p p' name aliases command args _ _ _ Cu C I NO NN R) as (evs & A1 & A2 & _ & A3).
  exists evs. auto.
Qed.
Print Assumptions C64_commands_are_passed_on.

(** 'gomill-passthrough' passes on any command, even one that the proxy overrides or the back end doesn't
    list. *)
Theorem C64_passthrough :
  forall (X U : Type) (ch : channel X) tb (p0 p1 : proxy (X * list cevent) U) c0 e0 names e p name aliases,
  set_back_end_controller (recorded ch) tb p0 c0 = (p1, PRet e0) -> customised e0 names e ->
  connected p name aliases -> ~ In (str "gomill-passthrough") names ->
  run_command e p (str "gomill-passthrough") [] = (p, (true, str "invalid arguments", false)) /\
  forall command args p' is_error text ended,
  run_command e p (str "gomill-passthrough") (command :: args) = (p', (is_error, text, ended)) ->
  exists evs, talked p p' evs /\ exchange (meaning aliases command) args evs /\
    relayed name (e_fatal e) evs is_error text ended.
Proof.
  intros X U ch tb p0 p1 c0 e0 names e p name aliases St Cu C NN.
  assert (exists commands, e0 = make_engine (recorded ch) tb commands) as (commands & ->).
  { unfold set_back_end_controller in St. destruct (px_back p0); [discriminate St|].
    destruct (list_commands (recorded ch) c0) as [c' [l| | |]]; try discriminate St. exists l. congruence. }
  split; [exact (passthrough_nothing ch tb commands names e p Cu NN)|].
  intros command args p' is_error text ended R.
  destruct (passthrough_proof ch tb commands names e p p' name aliases command args _ _ _ Cu C NN R) as (evs & A1 & A2 & _ & A3).
  exists evs. auto.
Qed.
Print Assumptions C64_passthrough.

(** 'quit' is passed on (without arguments), and always ends the session; that the back end has already
    gone is not an error. *)
Theorem C64_quit :
  forall (X U : Type) (ch : channel X) tb (p0 p1 : proxy (X * list cevent) U) c0 e0 names e p p' name aliases args is_error text ended,
  set_back_end_controller (recorded ch) tb p0 c0 = (p1, PRet e0) -> customised e0 names e ->
  connected p name aliases -> ~ In (str "quit") names ->
  run_command e p (str "quit") args = (p', (is_error, text, ended)) ->
  exists evs, talked p p' evs /\ exchange (meaning aliases (str "quit")) [] evs /\
    quit_relayed name (e_fatal e) evs is_error text ended /\ (existsb unexpected evs = false -> ended = true).
Proof.
  intros X U ch tb p0 p1 c0 e0 names e p p' name aliases args is_error text ended St Cu C NN R.
  assert (exists commands, e0 = make_engine (recorded ch) tb commands) as (commands & ->).
  { unfold set_back_end_controller in St. destruct (px_back p0); [discriminate St|].
    destruct (list_commands (recorded ch) c0) as [c' [l| | |]]; try discriminate St. exists l. congruence. }
  destruct (quit_proof ch tb commands names e p p' name aliases args _ _ _ Cu C NN R) as (evs & A1 & A2 & _ & A3).
  exists evs. do 3 (split; [assumption|]). intros Un. exact (quit_relayed_ended _ _ _ _ _ _ _ _ A2 Un A3).
Qed.
Print Assumptions C64_quit.

(** From the Python program: [pass_command] gives the response, or BadGtpResponse with the back end's
    message, or BackEndError for low-level errors. *)
Theorem C64_pass_command :
  forall (X U : Type) (ch : channel X) (p p' : proxy (X * list cevent) U) name aliases command args r,
  connected p name aliases -> pass_command (recorded ch) p command args = (p', r) ->
  exists evs, talked p p' evs /\ exchange (meaning aliases command) args evs /\
    match evs with
    | [EvSend _ _ None; EvGet (inl (false, t))] => r = PRet t
    | [EvSend _ _ None; EvGet (inl (true, t))] => r = PBad t
    | [EvSend _ _ (Some (XChan k t))] | [EvSend _ _ None; EvGet (inr (XChan k t))] =>
        exists msg, r = PBack msg (Some (By_channel k)) /\ message_about name msg t
    | [EvSend _ _ (Some (XOther e))] | [EvSend _ _ None; EvGet (inr (XOther e))] => r = PRaise e
    | _ => False
    end.
Proof.
  intros X U ch p p' name aliases command args r C P.
  destruct (pass_proof ch p p' name aliases command args r C P) as (evs & A1 & A2 & _ & A3). exists evs. auto.
Qed.
Print Assumptions C64_pass_command.

(** [run]: the connection to the back end is closed exactly once, at the end.  At the end of the input 'quit'
    is sent first; after a 'quit' command or a low-level error nothing more is sent.  BackEndError is raised
    exactly if there was some trouble in closing (or there were late errors before). *)
Theorem C64_run :
  forall (X U : Type) (ch : channel X) tb (p0 p1 : proxy (X * list cevent) U) c0 e0 fatal (p : proxy (X * list cevent) U) c input p' out r,
  set_back_end_controller (recorded ch) tb p0 c0 = (p1, PRet e0) ->
  px_back p = Some c -> c_closed c = false -> c_bad c = false ->
  run (recorded ch) (set_handler_exceptions_fatal e0 fatal) p input = (p', out, r) ->
  exists c' evs, px_back p' = Some c' /\ trace c' = trace c ++ evs /\
  (existsb unexpected evs = false ->
   exists p2 b talk q x new,
    run_session (set_handler_exceptions_fatal e0 fatal) p input = (p2, out, Ok b) /\
    evs = talk ++ q ++ [EvClose x] /\ existsb is_close (talk ++ q) = false /\ c_closed c' = true /\
    (b = true -> q = []) /\
    (b = false -> texts low_level_error talk = [] /\ exchange (meaning (c_aliases c) (str "quit")) [] q) /\
    Forall2 (message_about (c_name c)) new (texts trouble (q ++ [EvClose x])) /\
    r = match c_errors c ++ new with [] => PRet tt | msgs => PBack (join [char_lf] msgs) None end).
Proof.
  intros X U ch tb p0 p1 c0 e0 fatal p c input p' out r St Pc Cl Bd R.
  assert (exists commands, e0 = make_engine (recorded ch) tb commands) as (commands & ->).
  { unfold set_back_end_controller in St. destruct (px_back p0); [discriminate St|].
    destruct (list_commands (recorded ch) c0) as [c' [l| | |]]; try discriminate St. exists l. congruence. }
  exact (run_proof ch tb commands fatal p c input Pc Cl Bd p' out r R).
Qed.
Print Assumptions C64_run.

(** [close], at any time: safe to call without a back end, or again. *)
Theorem C64_close :
  forall (X U : Type) (ch : channel X) (p : proxy (X * list cevent) U),
  (px_back p = None -> close (recorded ch) p = (p, PRet tt)) /\
  (forall c, px_back p = Some c -> c_closed c = true ->
     close (recorded ch) p = (p, match c_errors c with [] => PRet tt | msgs => PBack (join [char_lf] msgs) None end)) /\
  (forall c p' r, px_back p = Some c -> c_closed c = false -> close (recorded ch) p = (p', r) ->
   exists c' evs new, px_back p' = Some c' /\ px_user p' = px_user p /\ trace c' = trace c ++ evs /\
    c_errors c' = c_errors c ++ new /\ Forall2 (message_about (c_name c)) new (texts trouble evs) /\
    (existsb unexpected evs = false ->
       c_closed c' = true /\
       r = (match c_errors c ++ new with [] => PRet tt | msgs => PBack (join [char_lf] msgs) None end) /\
       exists q x, evs = q ++ [EvClose x] /\ existsb is_close q = false /\
         (c_bad c = true -> q = []) /\
         (c_bad c = false -> exchange (meaning (c_aliases c) (str "quit")) [] q))).
Proof.
  intros X U ch p. split; [|split].
  - intros H. unfold close. rewrite H. reflexivity.
  - intros c H Cl. destruct p as [b u]. cbn in H. subst b. unfold close. cbn [px_back px_user]. unfold safe_close. rewrite Cl. reflexivity.
  - intros c p' r. apply close_proof.
Qed.
Print Assumptions C64_close.

(** After [expect_back_end_exit], closing sends nothing. *)
Theorem C64_expected_exit :
  forall (X U : Type) (ch : channel X) (p : proxy (X * list cevent) U) c p1 r1 p' r,
  px_back p = Some c -> c_closed c = false -> expect_back_end_exit p = (p1, r1) -> close (recorded ch) p1 = (p', r) ->
  exists c' x, px_back p' = Some c' /\ trace c' = trace c ++ [EvClose x].
Proof.
  intros X U ch p c p1 r1 p' r Pc Cl E K. unfold expect_back_end_exit in E. rewrite Pc in E. injection E as <- <-.
  unfold close in K. cbn [px_back] in K. unfold safe_close in K. cbn [set_bad c_closed c_bad] in K. rewrite Cl in K.
  destruct (safe_close_channel (recorded ch) (set_bad c)) as [c' r0] eqn:S.
  destruct (safe_close_channel_spec ch (set_bad c) c' r0 Cl S) as (x & T & _). exists c', x. split; [|exact T].
  injection K as <- <-. reflexivity.
Qed.
Print Assumptions C64_expected_exit.

(** [back_end_has_command] is the controller's [known_command] (see C45). *)
Theorem C64_back_end_has_command :
  forall (X U : Type) (ch : channel X) (p : proxy X U) c command,
  px_back p = Some c ->
  back_end_has_command ch p command =
    (mkProxy (Some (fst (known_command ch c command))) (px_user p),
     match snd (known_command ch c command) with
     | CRet b => PRet b
     | CBad _ _ => PBad []
     | CChan k m => PBack m (Some (By_channel k))
     | CExn e => PRaise e
     end).
Proof.
  intros X U ch p c command Pc. unfold back_end_has_command. rewrite Pc. destruct (known_command ch c command) as [c' r]. reflexivity.
Qed.
Print Assumptions C64_back_end_has_command.

Lemma plain_transmissible : forall w, w <> [] -> forallb (fun c => negb (ceqb c "#"%char) && (33 <=? ord c) && (ord c <=? 126)) w = true ->
    match w with c :: _ => negb (is_digit c) && negb (ceqb c "-"%char) | [] => false end = true -> transmissible w [].
Proof.
  intros w NE F D. split.
    - constructor; [|constructor]. split; [exact NE|]. rewrite forallb_forall in F. apply Forall_forall. intros c I. specialize (F c I).
      rewrite !andb_true_iff in F. destruct F as [[F1 F2] F3]. split; [|lia].
      intros ->. discriminate F1.
    - intros a b n E Nu. destruct w as [|c w]; [discriminate D|]. apply andb_true_iff in D. destruct D as [D1 D2].
      inversion Nu as [ds NE2 Fd|ds NE2 Fd]; subst a.
      + destruct ds as [|d ds]; [congruence|]. injection E as <- _. inversion Fd as [|? ? Q]; subst. rewrite Q in D1. discriminate.
      + assert (E1 : c = "-"%char) by exact (f_equal (fun l => hd c l) E). subst c. discriminate D2.
Qed.

Lemma own_transmissible : Forall (fun w => transmissible w []) (map str ["known_command"; "list_commands"; "protocol_version"; "quit"]%string).
Proof.
  pose proof plain_transmissible as H.
  repeat (apply Forall_cons; [apply H; [discriminate|reflexivity|reflexivity]|]). apply Forall_nil.
Qed.

Lemma be_transmissible {T} (be0 : engine T) : (forall w, In w (dkeys (e_handlers be0)) -> transmissible w []) ->
  forall w, In w (dkeys (e_handlers (add_protocol_commands be0))) -> transmissible w [].
Proof.
  intros H w I. unfold add_protocol_commands, add_command in I. cbn [e_handlers] in I. unfold dkeys in I.
  rewrite !dset_keys in I. pose proof own_transmissible as O. rewrite Forall_forall in O.
  destruct I as [->|[->|[->|[->|I]]]]; try (apply O; cbn; tauto). exact (H w I).
Qed.
Lemma transmissible_word w : transmissible w [] -> command_word w.
Proof.
  intros [F _]. inversion F as [|? ? [NE G] _]; subst. split; [exact NE|]. eapply Forall_impl; [|exact G].
  intros c [_ K]. lia.
Qed.
Lemma transmissible_more line id command args : reads line id command args -> transmissible command [] -> transmissible command args.
Proof.
  intros R [_ N]. split; [|exact N]. pose proof (reads_plain_words _ _ _ _ R) as F. exact F.
Qed.

(** Over pipes: starting a proxy on a program that runs a GTP session succeeds, and then any session on the
    proxy has exactly the responses that the program itself would give, as long as the session doesn't use
    'list_commands' and 'gomill-passthrough', nor the customised commands. *)
Theorem C64_same_session :
  forall (T U : Type) (be0 : engine T) s0 broken peeks tb (u : U) names input lines,
  NoDup (dkeys (e_handlers be0)) ->
  (forall w, In w (dkeys (e_handlers be0)) -> transmissible w []) ->
  well_behaved (add_protocol_commands be0) ->
  file_lines input lines ->
  (forall line id command args, In line lines -> reads line id command args ->
     alike (dkeys (e_handlers (add_protocol_commands be0))) names command args) ->
  exists p e0,
    set_back_end_subprocess (pipe_channel (add_protocol_commands be0) s0 broken peeks) tb (new_proxy u) (inl new_linebased) = (p, PRet e0) /\
    forall e, customised e0 names e ->
    exists p' t' out b,
      run_session (add_protocol_commands be0) s0 input = (t', out, Ok b) /\
      run_session e p input = (p', out, Ok b).
Proof.
  intros T U be0 s0 broken peeks tb u names input lines ND Tr Wb Fl Al.
  set (ch := pipe_channel (add_protocol_commands be0) s0 broken peeks).
  assert (W : Forall command_word (dkeys (e_handlers (add_protocol_commands be0)))).
  { apply Forall_forall. intros w I. apply transmissible_word, (be_transmissible be0 Tr w I). }
  assert (Ok : transmissible (str "list_commands") []).
  { pose proof own_transmissible as O. rewrite Forall_forall in O. apply O. cbn. tauto. }
  assert (R0 : pipe_at be0 s0 new_linebased s0).
  { exists []. split; [constructor|]. repeat split. }
  destruct (start_proof ch be0 transmissible (pipe_at be0 s0) (pipe_carries be0 s0 broken peeks Wb) ND W Ok tb u new_linebased s0 (str "back end") R0)
    as (p & commands & E & Same & St).
  exists p, (make_engine ch tb commands). split; [exact E|]. intros e Cu.
  eapply (session_alike ch be0 transmissible (pipe_at be0 s0) (pipe_carries be0 s0 broken peeks Wb) Wb tb commands names Same e Cu p s0 input lines St Fl).
  intros line id command args I Rd. pose proof (Al line id command args I Rd) as A. split; [exact A|].
  apply (transmissible_more line id command args Rd). apply (be_transmissible be0 Tr). exact (proj1 A).
Qed.
Print Assumptions C64_same_session.

(** The same for a back end in the same process. *)
Theorem C64_same_session_internal :
  forall (T U : Type) (be0 : engine T) s0 tb (u : U) names input lines,
  NoDup (dkeys (e_handlers be0)) ->
  Forall command_word (dkeys (e_handlers (add_protocol_commands be0))) ->
  well_behaved (add_protocol_commands be0) ->
  file_lines input lines ->
  (forall line id command args, In line lines -> reads line id command args ->
     alike (dkeys (e_handlers (add_protocol_commands be0))) names command args) ->
  exists p e0,
    set_back_end_controller (internal_channel (add_protocol_commands be0)) tb (new_proxy u)
      (new_controller (new_internal s0) (str "back end")) = (p, PRet e0) /\
    forall e, customised e0 names e ->
    exists p' t' out b,
      run_session (add_protocol_commands be0) s0 input = (t', out, Ok b) /\
      run_session e p input = (p', out, Ok b).
Proof.
  intros T U be0 s0 tb u names input lines ND W Wb Fl Al.
  set (ch := internal_channel (add_protocol_commands be0)).
  set (ok := fun command args => sendable command args = true).
  assert (R0 : internal_at (new_internal s0) s0) by (repeat split).
  destruct (start_proof ch be0 ok internal_at (internal_carries be0) ND W eq_refl tb u (new_internal s0) s0 (str "back end") R0)
    as (p & commands & E & Same & St).
  exists p, (make_engine ch tb commands). split; [exact E|]. intros e Cu.
  eapply (session_alike ch be0 ok internal_at (internal_carries be0) Wb tb commands names Same e Cu p s0 input lines St Fl).
  intros line id command args I Rd. pose proof (Al line id command args I Rd) as A. split; [exact A|].
  unfold ok, sendable. pose proof (reads_plain_words _ _ _ _ Rd) as F.
  change (forallb is_well_formed_gtp_word (command :: args) = true). apply Forall_forallb. eapply Forall_impl; [|exact F].
  intros w [NE Fw]. unfold is_well_formed_gtp_word. destruct w as [|x w]; [congruence|]. apply Forall_forallb.
  eapply Forall_impl; [|exact Fw]. intros a [_ H]. unfold word_char. lia.
Qed.
Print Assumptions C64_same_session_internal.

(** ** Examples *)

(** A back end that counts its moves, and refuses to play. *)
Definition demo_back_end : engine Z :=
  add_command (add_command new_engine
    (str "genmove") (User (fun n args => (n + 1, GOk (Some (str "A" ++ str_int (n + 1)))))))
    (str "play") (User (fun n args => (n, GError (str "illegal move")))).
Definition demo_proxied : engine Z := add_protocol_commands demo_back_end.
Definition demo_input : bytes :=
  str "1 genmove b" ++ [char_lf] ++ str "play b A1 # no" ++ [char_lf; char_lf] ++
  str "2 known_command play" ++ [char_lf] ++ str "genmove w" ++ [char_lf] ++ str "quit" ++ [char_lf] ++ str "genmove b" ++ [char_lf].

Example C64_demo_session :
  let ch := pipe_channel demo_proxied 0 true true in
  match set_back_end_subprocess ch (fun _ => []) (new_proxy tt) (inl new_linebased) with
  | (p, PRet e) =>
      snd (fst (run_session e p demo_input)) = snd (fst (run_session demo_proxied 0 demo_input)) /\
      snd (fst (run_session e p demo_input)) =
        str "=1 A1" ++ [char_lf; char_lf] ++ str "? illegal move" ++ [char_lf; char_lf] ++ str "=2 true" ++ [char_lf; char_lf] ++
        str "= A2" ++ [char_lf; char_lf] ++ str "=" ++ [char_lf; char_lf] /\
      snd (run ch e p demo_input) = PRet tt /\
      snd (fst (run_session e p (str "gomill-passthrough genmove b" ++ [char_lf] ++ str "list_commands" ++ [char_lf]))) =
        str "= A1" ++ [char_lf; char_lf] ++ str "= genmove" ++ [char_lf] ++ str "gomill-passthrough" ++ [char_lf] ++ str "known_command" ++ [char_lf] ++
        str "list_commands" ++ [char_lf] ++ str "play" ++ [char_lf] ++ str "protocol_version" ++ [char_lf] ++ str "quit" ++ [char_lf; char_lf]
  | _ => False
  end.
Proof. vm_compute. repeat split. Qed.

(** The hypotheses of C64_same_session are met by a back end like that one. *)
Definition demo_back_end2 : engine Z :=
  add_command (add_command new_engine
    (str "genmove") (User (fun n args => (n + 1, GOk (Some (str "A1"))))))
    (str "play") (User (fun n args => (n, GError (str "illegal move")))).
Lemma demo_neat s : forallb (fun c => (32 <=? ord c) && negb (ord c =? 127)) s = true ->
  match rev s with c :: _ => negb (is_space c) | [] => true end = true -> neat s.
Proof.
  intros F L. rewrite forallb_forall in F.
  assert (G : forall c, In c s -> 32 <= ord c /\ ord c <> 127).
  { intros c I. specialize (F c I). lia. }
  split; [apply Forall_forall; intros c I; right; exact (G c I)|]. split.
  - intros (u & v & ->). assert (I : In char_lf (u ++ [char_lf; char_lf] ++ v)) by (apply in_or_app; right; left; reflexivity).
    destruct (G _ I) as [K _]. vm_compute in K. apply K. reflexivity.
  - intros u c ->. rewrite rev_app_distr in L. cbn in L. destruct (is_space c); [discriminate L|reflexivity].
Qed.
Example C64_demo_behaved :
  NoDup (dkeys (e_handlers demo_back_end2)) /\
  (forall w, In w (dkeys (e_handlers demo_back_end2)) -> transmissible w []) /\
  well_behaved (add_protocol_commands demo_back_end2) /\
  alike (dkeys (e_handlers (add_protocol_commands demo_back_end2))) [] (str "genmove") [str "b"].
Proof.
  assert (OK : forall s, forallb (fun c => (32 <=? ord c) && negb (ord c =? 127)) s = true ->
    match rev s with c :: _ => negb (is_space c) | [] => true end = true ->
    match s with c :: _ => negb (is_blank c) | [] => true end = true ->
    neat s /\ (forall c r, s = c :: r -> is_blank c = false)).
  { intros s A B C. split; [apply demo_neat; assumption|]. intros c r ->. destruct (is_blank c); [discriminate C|reflexivity]. }
  split; [|split; [|split]].
  - apply NoDup_cons; [cbn; intros [E|[]]; discriminate E|]. apply NoDup_cons; [intros []|apply NoDup_nil].
  - intros w [<-|[<-|[]]]; apply plain_transmissible; (discriminate || reflexivity).
  - intros t command args t' is_error text ended. unfold run_command, GtpModel.do_command.
    destruct (dget command (e_handlers (add_protocol_commands demo_back_end2))) as [h|] eqn:G.
    + apply dget_In in G. vm_compute in G.
      destruct G as [G|[G|[G|[G|[G|[G|[]]]]]]]; pose proof (f_equal fst G) as G1; pose proof (f_equal snd G) as G2;
        cbn [fst snd] in G1, G2; subst h; clear G; cbn [call_handler].
      * intros H. assert (F : text = str "A1" /\ is_error = false /\ ended = false) by (split; [exact (eq_sym (f_equal (fun z => snd (fst (snd z))) H))|split; [exact (eq_sym (f_equal (fun z => fst (fst (snd z))) H))|exact (eq_sym (f_equal (fun z => snd (snd z)) H))]]).
        destruct F as (-> & -> & ->). destruct (OK (str "A1")) as [A B]; try reflexivity. split; [exact A|]. split; [exact B|]. split; discriminate.
      * intros H. assert (F : text = str "illegal move" /\ is_error = true /\ ended = false) by (split; [exact (eq_sym (f_equal (fun z => snd (fst (snd z))) H))|split; [exact (eq_sym (f_equal (fun z => fst (fst (snd z))) H))|exact (eq_sym (f_equal (fun z => snd (snd z)) H))]]).
        destruct F as (-> & -> & ->). destruct (OK (str "illegal move")) as [A B]; try reflexivity. split; [exact A|]. split; [exact B|]. split; discriminate.
      * match goal with |- context [format_gtp_boolean ?b] => destruct b end; intros H.
        -- assert (F : text = str "true" /\ is_error = false /\ ended = false) by (split; [exact (eq_sym (f_equal (fun z => snd (fst (snd z))) H))|split; [exact (eq_sym (f_equal (fun z => fst (fst (snd z))) H))|exact (eq_sym (f_equal (fun z => snd (snd z)) H))]]).
           destruct F as (-> & -> & ->). destruct (OK (str "true")) as [A B]; try reflexivity. split; [exact A|]. split; [exact B|]. split; discriminate.
        -- assert (F : text = str "false" /\ is_error = false /\ ended = false) by (split; [exact (eq_sym (f_equal (fun z => snd (fst (snd z))) H))|split; [exact (eq_sym (f_equal (fun z => fst (fst (snd z))) H))|exact (eq_sym (f_equal (fun z => snd (snd z)) H))]]).
           destruct F as (-> & -> & ->). destruct (OK (str "false")) as [A B]; try reflexivity. split; [exact A|]. split; [exact B|]. split; discriminate.
      * intros H. set (l := map str ["genmove"; "known_command"; "list_commands"; "play"; "protocol_version"; "quit"]%string).
        assert (F : text = join [char_lf] l /\ is_error = false /\ ended = false).
        { split; [refine (eq_trans (eq_sym (f_equal (fun z => snd (fst (snd z))) H)) _); vm_compute; reflexivity|split; [exact (eq_sym (f_equal (fun z => fst (fst (snd z))) H))|exact (eq_sym (f_equal (fun z => snd (snd z)) H))]]. }
        destruct F as (-> & -> & ->). split; [|split; [|split; discriminate]].
        -- apply words_neat. unfold l. cbn [map]. repeat (apply Forall_cons; [apply transmissible_word, plain_transmissible; (discriminate || reflexivity)|]). apply Forall_nil.
        -- intros c r E. assert (c = "g"%char) by exact (eq_sym (f_equal (fun z => hd c z) E)). subst c. reflexivity.
      * intros H. assert (F : text = str "2" /\ is_error = false /\ ended = false) by (split; [exact (eq_sym (f_equal (fun z => snd (fst (snd z))) H))|split; [exact (eq_sym (f_equal (fun z => fst (fst (snd z))) H))|exact (eq_sym (f_equal (fun z => snd (snd z)) H))]]).
        destruct F as (-> & -> & ->). destruct (OK (str "2")) as [A B]; try reflexivity. split; [exact A|]. split; [exact B|]. split; discriminate.
      * intros H. assert (F : text = [] /\ is_error = false /\ ended = true) by (split; [exact (eq_sym (f_equal (fun z => snd (fst (snd z))) H))|split; [exact (eq_sym (f_equal (fun z => fst (fst (snd z))) H))|exact (eq_sym (f_equal (fun z => snd (snd z)) H))]]).
        destruct F as (-> & -> & ->). destruct (OK []) as [A B]; try reflexivity. split; [exact A|]. split; [exact B|]. split; [discriminate|]. intros _.
        split; [exact (eq_sym G1)|reflexivity].
    + intros H. assert (F : text = str "unknown command" /\ is_error = true /\ ended = false) by (split; [exact (eq_sym (f_equal (fun z => snd (fst (snd z))) H))|split; [exact (eq_sym (f_equal (fun z => fst (fst (snd z))) H))|exact (eq_sym (f_equal (fun z => snd (snd z)) H))]]).
      destruct F as (-> & -> & ->). destruct (OK (str "unknown command")) as [A B]; try reflexivity. split; [exact A|]. split; [exact B|]. split; discriminate.
  - split; [cbn; auto|]. split; [intros []|]. split; [discriminate|]. split; [discriminate|]. split; intros E; discriminate E.
Qed.

(** A response with three newlines in a row is not passed on unchanged: cleaning it twice differs from cleaning it
    once (so a proxy is not transparent for it). *)
Example C64_finding_cleaned_twice :
  let t := str "a" ++ [char_lf; char_lf; char_lf] ++ str "b" in
  clean_response (clean_response t) <> clean_response t.
Proof. vm_compute. discriminate. Qed.
