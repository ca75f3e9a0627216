(** C35 (responses), C36 (channels) and C39 (arguments) of the Go Text Protocol. *)
From Coq Require Import QArith Qabs.
From Verif Require Import Base Bytes PyStr Dict CommonModel CommonProofs BoardSpec SgfPropsModel GameplaySpec
  GtpModel GtpSpec GtpProofs GtpChannelProofs GtpSessionProofs GtpArgSpec GtpArgProofs.
Open Scope Z_scope.

(** * C35: every GTP response is well framed *)

(** A line that is a command gets the framed response to it, with the id it gave; the state
    is what the command left. *)
Theorem C35_commands_get_framed_responses :
  forall S (e : engine S) s line id command args s' is_error text end_session,
  reads line id command args ->
  run_command e s command args = (s', (is_error, text, end_session)) ->
  handle_line e s line = (s', Ok (Some (framed is_error id text), end_session)).
Proof.
  intros S e s line id command args s' is_error text end_session R H.
  rewrite (handle_line_reads e s line id command args R), H. reflexivity.
Qed.
Print Assumptions C35_commands_get_framed_responses.

(** Any other line (blank, a comment, or only an id) is ignored. *)
Theorem C35_other_lines_are_ignored :
  forall S (e : engine S) s line,
  (forall id command args, ~ reads line id command args) ->
  handle_line e s line = (s, Ok (None, false)).
Proof. exact (@handle_line_silent). Qed.
Print Assumptions C35_other_lines_are_ignored.

(** There is only one way to read a line. *)
Theorem C35_one_reading :
  forall line i c a i' c' a',
  reads line i c a -> reads line i' c' a' -> i = i' /\ c = c' /\ a = a'.
Proof. exact reads_fun. Qed.
Print Assumptions C35_one_reading.

(** The handler's verdict and message decide the response.  A message that is fit to be sent
    is sent as it is. *)
Theorem C35_neat_messages_are_sent_unchanged :
  forall S (e : engine S) s command args s' f r,
  dget command (e_handlers e) = Some (User f) -> f s args = (s', r) ->
  (r = GOk None -> run_command e s command args = (s', (false, [], false))) /\
  (forall t, neat t ->
     (r = GOk (Some t) -> run_command e s command args = (s', (false, t, false))) /\
     (r = GQuit t -> run_command e s command args = (s', (false, t, true))) /\
     (t <> [] -> r = GError t -> run_command e s command args = (s', (true, t, false))) /\
     (t <> [] -> r = GFatal t -> run_command e s command args = (s', (true, t, true)))) /\
  (r = GError [] -> run_command e s command args = (s', (true, str "unspecified error", false))) /\
  (forall t, r = GRaise t -> exists t',
     run_command e s command args = (s', (true, t', e_fatal e))).
Proof.
  intros S e s command args s' f r G F. unfold run_command, do_command. rewrite G. cbn [call_handler]. rewrite F.
  split; [intros ->; reflexivity|]. split; [|split].
  - intros t N. pose proof (clean_of_neat t N) as C.
    split; [intros ->; rewrite C; reflexivity|]. split; [intros ->; rewrite C; reflexivity|].
    split; intros Nt ->; (assert (forall d, or_default t d = t) as -> by (destruct t; [congruence|reflexivity]));
      rewrite C; reflexivity.
  - intros ->. reflexivity.
  - intros t ->. destruct (e_fatal e); eexists; reflexivity.
Qed.
Print Assumptions C35_neat_messages_are_sent_unchanged.

(** A command without a handler fails, and changes nothing. *)
Theorem C35_unknown_command :
  forall S (e : engine S) s command args,
  dget command (e_handlers e) = None ->
  run_command e s command args = (s, (true, str "unknown command", false)).
Proof. intros S e s command args G. unfold run_command, do_command. rewrite G. reflexivity. Qed.
Print Assumptions C35_unknown_command.

(** Whatever the handler does, the response text has no control characters but newline. *)
Theorem C35_no_control_characters :
  forall S (e : engine S) s command args s' is_error text end_session,
  run_command e s command args = (s', (is_error, text, end_session)) ->
  Forall (fun c => c = char_lf \/ (32 <= ord c /\ ord c <> 127)) text.
Proof.
  intros S e s command args s' is_error text end_session.
  unfold run_command. destruct (do_command e s command args) as [s1 r] eqn:E.
  destruct r as [[t|]|m|m|m|m]; intros H; injection H as <- <- <- <-; try apply clean_controls.
  - constructor.
  - exfalso. unfold do_command in E. destruct (dget command (e_handlers e)); [|discriminate].
    destruct (call_handler e h s args) as [s2 [a|a|a|a|a]]; try (injection E; discriminate).
    destruct (e_fatal e); discriminate.
Qed.
Print Assumptions C35_no_control_characters.

(** A message of printable characters, tabs and newlines is turned into one that is fit to
    be sent, unless it has two blank lines in a row. *)
Theorem C35_cleaning :
  forall t, printable t ->
  (neat (clean_response t) <-> ~ within [char_lf; char_lf; char_lf] (rstrip t)).
Proof. exact clean_neat. Qed.
Print Assumptions C35_cleaning.

(** A framed response with such a text ends at its only blank line. *)
Theorem C35_one_blank_line_at_the_end :
  forall b id t u v,
  neat t -> match id with None => True | Some i => Forall (fun c => is_digit c = true) i end ->
  framed b id t = u ++ [char_lf; char_lf] ++ v -> v = [].
Proof.
  intros b id t u v N I E.
  assert (exists w, framed b id t = w ++ [char_lf; char_lf] /\ has2 (w ++ [char_lf]) = false) as (w & W & H).
  { exists ((if b then "?"%char else "="%char) :: (match id with Some i => i | None => [] end) ++ (match t with [] => [] | _ => char_sp :: t end)).
    split; [unfold framed; cbn [app]; rewrite <- !app_assoc; reflexivity|].
    assert (has2 (match t with [] => [] | _ => char_sp :: t end ++ [char_lf]) = false) as H1.
    { pose proof (neat_has2 t N) as H2. destruct N as (_ & _ & En). destruct t as [|x t]; [reflexivity|].
      cbn [app]. rewrite has2_cons. cbn [andb orb].
      assert (forall l, has2 l = false -> ends_ok l -> has2 (l ++ [char_lf]) = false) as K.
      { clear. induction l as [|a l IH]; intros A B; [reflexivity|]. cbn [app]. rewrite has2_cons in A |- *.
        apply orb_false_iff in A. destruct A as [A1 A2]. destruct l as [|c l].
        - cbn [app starts_lf has2]. specialize (B [] a eq_refl).
          destruct (ceqb_spec a char_lf) as [->|]; [discriminate|reflexivity].
        - rewrite IH; [cbn [app starts_lf] in *; rewrite A1; reflexivity|exact A2|].
          intros w z Q. apply (B (a :: w) z). rewrite Q. reflexivity. }
      change (has2 ((x :: t) ++ [char_lf]) = false). apply K; auto. }
    cbn [app]. rewrite has2_cons, <- app_assoc.
    assert (has2 (match id with Some i => i | None => [] end ++ match t with [] => [] | _ => char_sp :: t end ++ [char_lf]) = false) as ->.
    { clear E. destruct id as [i|]; [|exact H1]. induction I as [|d i D F IH]; [exact H1|].
      cbn [app]. rewrite has2_cons, IH. assert (ceqb d char_lf = false) as -> by (destruct (ceqb_spec d char_lf) as [->|]; [discriminate|reflexivity]).
      reflexivity. }
    destruct b; reflexivity. }
  rewrite W in E. destruct (v) as [|x v' ] using rev_ind; [reflexivity|]. exfalso.
  clear IHv'. replace (w ++ [char_lf; char_lf]) with ((w ++ [char_lf]) ++ [char_lf]) in E by (rewrite <- app_assoc; reflexivity).
  rewrite !app_assoc in E. apply app_inj_tail in E. destruct E as [E _].
  assert (has2 (w ++ [char_lf]) = true) as K; [|congruence].
  rewrite E. apply has2_within. exists u, v'. rewrite <- !app_assoc. reflexivity.
Qed.
Print Assumptions C35_one_blank_line_at_the_end.

(** A whole session never fails: it writes the framed responses to the commands among its
    lines, in order, and nothing else, until a command ends it. *)
Theorem C35_sessions :
  forall S (e : engine S) s input, exists s' out b lines responses,
  run_session e s input = (s', out, Ok b) /\ file_lines input lines /\
  served e s lines s' responses b /\ out = List.concat responses.
Proof. exact (@session_served). Qed.
Print Assumptions C35_sessions.

(** The protocol commands: they do not change the state of the program; known_command and
    list_commands tell exactly which commands there are; quit ends the session. *)
Theorem C35_protocol_commands :
  forall S (e0 : engine S) s args,
  let e := add_protocol_commands e0 in
  run_command e s (str "quit") args = (s, (false, [], true)) /\
  run_command e s (str "protocol_version") args = (s, (false, str "2", false)) /\
  (forall c, In c [str "quit"; str "protocol_version"; str "known_command"; str "list_commands"] ->
     In c (dkeys (e_handlers e))) /\
  (forall c, In c (dkeys (e_handlers e0)) -> In c (dkeys (e_handlers e))) /\
  (forall c rest, run_command e s (str "known_command") (c :: rest) =
     (s, (false, (if in_dec (list_eq_dec ascii_dec) c (dkeys (e_handlers e)) then str "true" else str "false"), false))) /\
  run_command e s (str "known_command") [] = (s, (false, str "false", false)) /\
  (forall c, ~ In c (dkeys (e_handlers e)) -> forall a, run_command e s c a = (s, (true, str "unknown command", false))) /\
  (NoDup (dkeys (e_handlers e)) -> Forall command_word (dkeys (e_handlers e)) ->
     exists l, in_order l /\ (forall c, In c l <-> In c (dkeys (e_handlers e))) /\
       run_command e s (str "list_commands") args = (s, (false, join [char_lf] l, false))).
Proof. exact (@protocol_commands). Qed.
Print Assumptions C35_protocol_commands.

(** ** A concrete engine: it counts its commands *)
Definition demo_handler (s : nat) (args : list bytes) : nat * gres (option bytes) :=
  (Datatypes.S s,
   match args with
   | [] => GOk None
   | a :: _ => if bytes_eqb a (str "fail") then GError (str "as you like")
               else if bytes_eqb a (str "crash") then GRaise (str "traceback")
               else GOk (Some (join [char_lf] args))
   end).

Definition demo_engine : engine nat :=
  add_protocol_commands (add_command new_engine (str "echo") (User demo_handler)).

Example C35_demo :
  handle_line demo_engine O (str "12 echo   a" ++ [char_tab] ++ str "b # comment") =
    (1%nat, Ok (Some (str "=12 a" ++ [char_lf] ++ str "b" ++ [char_lf; char_lf]), false)) /\
  handle_line demo_engine O (str "3000000000echo fail") =
    (1%nat, Ok (Some (str "?2147483647 as you like" ++ [char_lf; char_lf]), false)) /\
  handle_line demo_engine O (str "quit") = (O, Ok (Some (str "=" ++ [char_lf; char_lf]), true)) /\
  handle_line demo_engine O (str "  17 ") = (O, Ok (None, false)) /\
  handle_line demo_engine O (str "-1 nonsense") =
    (O, Ok (Some (str "? unknown command" ++ [char_lf; char_lf]), false)).
Proof. vm_compute. auto 10. Qed.

Example C35_protocol_demo :
  NoDup (dkeys (e_handlers demo_engine)) /\ Forall command_word (dkeys (e_handlers demo_engine)) /\
  run_command demo_engine O (str "list_commands") [] =
    (O, (false, join [char_lf] [str "echo"; str "known_command"; str "list_commands"; str "protocol_version"; str "quit"], false)).
Proof.
  assert (dkeys (e_handlers demo_engine) = [str "echo"; str "known_command"; str "list_commands"; str "protocol_version"; str "quit"]) as ->
    by (vm_compute; reflexivity).
  split; [|split; [|vm_compute; reflexivity]].
  - repeat (apply NoDup_cons; [intros I; cbn [In] in I; decompose [or] I; try discriminate; contradiction|]). apply NoDup_nil.
  - repeat (apply Forall_cons; [split; [discriminate|repeat (apply Forall_cons; [vm_compute; split; congruence|]); apply Forall_nil]|]). apply Forall_nil.
Qed.

Example C35_reads_demo : reads (str "7list_commands x") (Some (str "7")) (str "list_commands") [str "x"].
Proof.
  change (Some (str "7")) with (echoed (str "7") 7).
  apply (reads_joined _ (str "7") 7 (str "list_commands") [str "x"]).
  - exists (str "7list_commands x"). split.
    + assert (visible (str "7list_commands x") = str "7list_commands x") as <- by (vm_compute; reflexivity).
      apply payload_visible.
    + change (str "7list_commands x") with ([] ++ str "7list_commands" ++ str " x").
      constructor; [constructor|discriminate| |intros c r H; injection H as <- _; left; reflexivity|].
      * repeat (constructor; [intros [H|H]; discriminate H|]). constructor.
      * change (str " x") with (str " " ++ str "x" ++ []).
        constructor; [repeat constructor|discriminate|repeat (constructor; [intros [H|H]; discriminate H|]); constructor| |constructor; constructor].
        intros c r H. discriminate H.
  - change 7 with (digits_val (str "7")). constructor; [discriminate|]. repeat constructor.
  - discriminate.
  - intros c r H. injection H as <- _. reflexivity.
Qed.

(** Findings: [_clean_response] does not always give a text that is fit to be sent.  Three
    newlines leave a blank line, and so does a control character between two; a control
    character after white space leaves the white space at the end. *)
Example C35_cleaning_can_fail :
  clean_response (str "a" ++ [char_lf; char_lf; char_lf] ++ str "b") =
    str "a" ++ [char_lf] ++ str "." ++ [char_lf; char_lf] ++ str "b" /\
  clean_response (str "a" ++ [char_lf; char_cr; char_lf] ++ str "b") = str "a" ++ [char_lf; char_lf] ++ str "b" /\
  clean_response (str "a " ++ [chr 1]) = str "a ".
Proof. vm_compute. auto. Qed.

(** * C36: controller and engine agree *)

(** Any interleaving of commands and replies over a line-based channel: the replies are the
    answers of the engine to the same commands given directly, in order, without the white
    space at the start of the text; after the engine has ended the session, the channel is
    reported as closed.  (With or without looking at the first byte; whatever happens to
    writes when the engine has gone.) *)
Theorem C36_linebased_conversation :
  forall S (e : engine S) s0 peeks ops,
  Forall (fun c => transmissible (fst c) (snd c)) (commands_sent ops) ->
  Forall (fun a => neat (snd a)) (answers e s0 (commands_sent ops)) ->
  well_ordered O ops ->
  replies (run_linebased e peeks s0 new_linebased ops) =
  expected (gets ops) (map (fun a => (fst a, lstrip_blank (snd a))) (answers e s0 (commands_sent ops))).
Proof. exact (@linebased_correct). Qed.
Print Assumptions C36_linebased_conversation.

(** The same for the in-process channel, where nothing needs to be assumed of the texts. *)
Theorem C36_internal_conversation :
  forall S (e : engine S) s0 ops,
  Forall (fun c => sendable (fst c) (snd c) = true) (commands_sent ops) ->
  well_ordered O ops ->
  replies (run_internal e (new_internal s0) ops) =
  expected (gets ops) (answers e s0 (commands_sent ops)).
Proof. exact (@internal_correct). Qed.
Print Assumptions C36_internal_conversation.

(** Words that can't be sent are refused before anything is sent. *)
Theorem C36_bad_words_are_refused :
  forall S (e : engine S) s0 broken c command args,
  (exists w ch, In w (command :: args) /\ In ch w /\ (ord ch <= 32 \/ ord ch = 127)) \/ In [] (command :: args) ->
  linebased_send e s0 broken c command args = (c, Some Bad_word).
Proof.
  intros S e s0 broken c command args H. unfold linebased_send.
  assert (sendable command args = false) as ->; [|reflexivity].
  destruct (sendable command args) eqn:E; [|reflexivity]. exfalso.
  change (forallb is_well_formed_gtp_word (command :: args) = true) in E. rewrite forallb_forall in E.
  destruct H as [(w & ch & Iw & Ic & O)|I].
  - apply E in Iw. unfold is_well_formed_gtp_word in Iw. destruct w as [|x w]; [destruct Ic|].
    rewrite forallb_forall in Iw. apply Iw in Ic. unfold word_char in Ic. lia.
  - apply E in I. discriminate.
Qed.
Print Assumptions C36_bad_words_are_refused.

Definition demo_ops : list chan_op :=
  [Send (str "echo") [str "hello"; str "world"] false; Send (str "echo") [str "fail"] false; Get;
   Send (str "quit") [] false; Get; Get; Send (str "echo") [str "x"] true; Get].

Example C36_demo :
  Forall (fun c => transmissible (fst c) (snd c)) (commands_sent demo_ops) /\
  Forall (fun a => neat (snd a)) (answers demo_engine O (commands_sent demo_ops)) /\
  well_ordered O demo_ops /\
  run_linebased demo_engine true O new_linebased demo_ops =
  [Sent None; Sent None; Got (Reply false (str "hello" ++ [char_lf] ++ str "world")); Sent None;
   Got (Reply true (str "as you like")); Got (Reply false []); Sent (Some Channel_closed); Got (Fails Channel_closed)].
Proof.
  split; [|split; [|split; [repeat constructor|vm_compute; reflexivity]]].
  - assert (forall command args,
      forallb (fun w => match w with [] => false | _ => forallb (fun c => negb (ceqb c "#"%char) && (((33 <=? ord c) && (ord c <=? 126)) || (128 <=? ord c))) w end) (command :: args) = true ->
      match_id command = None -> transmissible command args) as K.
    { intros command args A B. split; [|apply match_id_none; exact B].
      apply Forall_forall. intros w I. rewrite forallb_forall in A. apply A in I. destruct w as [|x w]; [discriminate|].
      split; [discriminate|]. apply Forall_forall. intros c Ic. rewrite forallb_forall in I. apply I in Ic.
      apply andb_true_iff in Ic. destruct Ic as [I1 I2]. split; [|lia].
      intros ->. discriminate. }
    repeat (constructor; [apply K; vm_compute; reflexivity|]). constructor.
  - assert (forall t, forallb (fun c => ceqb c char_lf || ((32 <=? ord c) && negb (ord c =? 127))) t = true ->
              has2 t = false -> is_space (List.last t "a"%char) = false -> neat t) as K.
    { intros t A B C. split; [|split].
      - apply Forall_forall. intros c I. rewrite forallb_forall in A. apply A in I.
        apply orb_true_iff in I. destruct I as [I|I]; [left; apply Ascii.eqb_eq; exact I|right; lia].
      - rewrite <- has2_within. congruence.
      - apply ends_ok_last. exact C. }
    assert (forall l : list (bool * bytes),
      forallb (fun a => forallb (fun c => ceqb c char_lf || ((32 <=? ord c) && negb (ord c =? 127))) (snd a) &&
               negb (has2 (snd a)) && negb (is_space (List.last (snd a) "a"%char))) l = true ->
      Forall (fun a => neat (snd a)) l) as K2.
    { intros l H. apply Forall_forall. intros a I. rewrite forallb_forall in H. apply H in I.
      apply andb_true_iff in I. destruct I as [I I3]. apply andb_true_iff in I. destruct I as [I1 I2].
      apply K; [exact I1| |]; apply negb_true_iff; assumption. }
    apply K2. vm_compute. reflexivity.
Qed.

(** Findings: a word with a comment character is accepted by the controller, but the engine
    ignores the rest of the line; and digits at the start of a command are taken for an id. *)
Example C36_comment_character_is_lost :
  sendable (str "echo") [str "a#b"; str "c"] = true /\
  replies (run_linebased demo_engine true O new_linebased [Send (str "echo") [str "a#b"; str "c"] false; Get]) =
    [Reply false (str "a")] /\
  replies (run_internal demo_engine (new_internal O) [Send (str "echo") [str "a#b"; str "c"] false; Get]) =
    [Reply false (str "a#b" ++ [char_lf] ++ str "c")].
Proof. vm_compute. auto. Qed.

Example C36_leading_digits_are_lost :
  sendable (str "2echo") [str "a"] = true /\
  replies (run_linebased demo_engine true O new_linebased [Send (str "2echo") [str "a"] false; Get]) =
    [Reply false (str "2 a")] /\
  replies (run_internal demo_engine (new_internal O) [Send (str "2echo") [str "a"] false; Get]) =
    [Reply true (str "unknown command")].
Proof. vm_compute. auto. Qed.

(** Finding: an engine whose handler returns two blank lines in a row sends a response that
    the controller takes for the end, and then isn't GTP any more. *)
Example C36_blank_lines_desynchronise :
  let e := add_command new_engine (str "two") (User (fun (s : nat) _ => (s, GOk (Some (str "a" ++ [char_lf; char_lf; char_lf] ++ str "b"))))) in
  replies (run_linebased e true O new_linebased [Send (str "two") [] false; Get; Send (str "two") [] false; Get]) =
    [Reply false (str "a" ++ [char_lf] ++ str "."); Fails Protocol_error].
Proof. vm_compute. reflexivity. Qed.

(** * C39: GTP arguments *)

Theorem C39_int :
  forall s,
  (forall n, int_literal s n ->
     exists m, interpret_int s = GOk m /\ -1 <= m <= 2147483647 /\
       (0 <= n <= 2147483647 -> m = n) /\ (n < 0 -> m = -1) /\ (2147483647 < n -> m = 2147483647)) /\
  ((forall n, ~ int_literal s n) -> exists msg, interpret_int s = GError msg).
Proof. exact interpret_int_proof. Qed.
Print Assumptions C39_int.

Theorem C39_float :
  forall s,
  (forall q, float_literal s q -> (Qabs q < float_max)%Q ->
     exists f, interpret_float s = GOk f /\ (value f == q)%Q) /\
  (forall f, interpret_float s = GOk f ->
     (Qabs (value f) < float_max)%Q /\ exists q, float_literal s q /\ (value f == q)%Q) /\
  ((forall f, interpret_float s <> GOk f) -> exists msg, interpret_float s = GError msg).
Proof. exact interpret_float_proof. Qed.
Print Assumptions C39_float.

Theorem C39_colour :
  forall s,
  (forall c, interpret_colour s = GOk c <->
     match c with
     | Black => map lower_char s = str "b" \/ map lower_char s = str "black"
     | White => map lower_char s = str "w" \/ map lower_char s = str "white"
     end) /\
  ((forall c, interpret_colour s <> GOk c) -> exists msg, interpret_colour s = GError msg).
Proof. exact interpret_colour_proof. Qed.
Print Assumptions C39_colour.

Theorem C39_boolean :
  forall s,
  (forall b, interpret_boolean s = GOk b <-> s = str (if b then "true" else "false")) /\
  ((forall b, interpret_boolean s <> GOk b) -> exists msg, interpret_boolean s = GError msg).
Proof. exact interpret_boolean_proof. Qed.
Print Assumptions C39_boolean.

Theorem C39_vertex :
  forall s size,
  (forall p, interpret_vertex s size = GOk (Some p) -> 1 <= size <= 25 /\ on_board size p) /\
  (interpret_vertex s size = GOk None -> map lower_char s = str "pass") /\
  (forall m, 1 <= size <= 25 -> match m with None => True | Some p => on_board size p end ->
     format_vertex m = Ok s -> interpret_vertex s size = GOk m) /\
  ((forall m, interpret_vertex s size <> GOk m) -> exists msg, interpret_vertex s size = GError msg).
Proof.
  intros s size. unfold interpret_vertex.
  destruct (move_from_vertex_total s size) as [E|(Hs & [[E L]|(p & E & B)])].
  - rewrite E. split; [discriminate|]. split; [discriminate|]. split; [|eauto].
    intros m Hs B F. rewrite (vertex_roundtrip m size s Hs B F) in E. discriminate.
  - rewrite E. split; [discriminate|]. split; [auto|]. split; [|intros H; exfalso; eapply H; reflexivity].
    intros m _ B F. rewrite (vertex_roundtrip m size s Hs B F) in E. injection E as ->. reflexivity.
  - rewrite E. split; [intros q H; injection H as <-; auto|]. split; [discriminate|].
    split; [|intros H; exfalso; eapply H; reflexivity].
    intros m _ B' F. rewrite (vertex_roundtrip m size s Hs B' F) in E. injection E as ->. reflexivity.
Qed.
Print Assumptions C39_vertex.

Example C39_demo :
  interpret_int (str "99999999999") = GOk 2147483647 /\ interpret_int (str "-7") = GOk (-1) /\
  interpret_int (str "19") = GOk 19 /\ (exists m, interpret_int (str "1x") = GError m) /\
  interpret_float (str "-5.50e1") = GOk (-55, O) /\ (exists m, interpret_float (str "nan") = GError m) /\
  (exists m, interpret_float (str "1e400") = GError m) /\
  interpret_colour (str "BLACK") = GOk Black /\ (exists m, interpret_colour (str "grey") = GError m).
Proof. vm_compute. eauto 15. Qed.
