(** C88: sessions whose controller may go away, and interactive sessions. *)
From Verif Require Import Base Bytes Dict EngineModel EngineProofs GtpModel GtpSpec GtpSessionProofs InteractiveModel InteractiveSpec InteractiveProofs.

(** C88.  In every session the controller gets the framed responses to its commands, in order, until
    the engine ends the session, the input ends, or a response can't be written; then the engine
    has handled exactly the commands up to that response's, and a broken pipe (only that) is reported as
    ControllerDisconnected. *)
Theorem C88_sessions :
  forall S (e : engine S) s input lines ws, file_lines input lines ->
  exists s' responses why, run_gtp_session e s input ws = (s', List.concat responses, why) /\
    heard e s lines ws s' responses why.
Proof. intros S e s input lines ws F. apply loop_heard; [exact F|lia]. Qed.
Print Assumptions C88_sessions.

(** If all writes succeed it is the session of C35. *)
Theorem C88_writes_succeed :
  forall S (e : engine S) s input ws, Forall (eq WOk) ws ->
  run_session e s input =
  (let '(s', out, why) := run_gtp_session e s input ws in
   (s', out, match why with AtEof => Ok false | AtEnd => Ok true | Raises x => Err x | _ => Err OutOfFuel end)).
Proof. intros S e s input ws W. apply session_loop. exact W. Qed.
Print Assumptions C88_writes_succeed.

(** An interactive session is the same session, whether readline is used or not. *)
Theorem C88_interactive_is_the_same :
  forall S (e : engine S) use_readline s input ws t,
  fst (run_interactive_gtp_session e use_readline s input ws t) = run_gtp_session e s input ws /\
  (use_readline = false -> snd (run_interactive_gtp_session e use_readline s input ws t) = t).
Proof.
  intros S e [|] s input ws t; (split; [|intros E; try discriminate E; reflexivity]); [|reflexivity].
  unfold run_interactive_gtp_session, run_gtp_session. cbn [negb]. rewrite loop_same.
  destruct (loop e (Datatypes.S (List.length input)) read_file s input ws) as [[s' out] why]. cbn [snd].
  destruct why; reflexivity.
Qed.
Print Assumptions C88_interactive_is_the_same.

(** After a session that returns, readline's completer and delimiters are as they were, and the history
    file holds the history if it can be written.  The history is what it was, what
    the file had, and the lines read (without their newlines; no empty ones, and no repetitions). *)
Theorem C88_readline_after_the_session :
  forall S (e : engine S) s input lines ws t s' out why t', file_lines input lines ->
  run_interactive_gtp_session e true s input ws t = (s', out, why, t') ->
  (exists k, t_history t' =
     fold_left remember (firstn k (map (fun l => if ceqb (last l char_sp) char_lf then removelast l else l) lines))
       (t_history t ++ match t_file t with Some h => h | None => [] end) /\
     (why = AtEof -> (List.length lines <= k)%nat)) /\
  (why = AtEof \/ why = AtEnd ->
     t_completer t' = t_completer t /\ t_delims t' = t_delims t /\
     t_file t' = if t_writable t then Some (t_history t') else t_file t).
Proof.
  intros S e s input lines ws t s' out why t' F X.
  unfold run_interactive_gtp_session in X. cbn [negb] in X. rewrite loop_same in X.
  destruct (lines_prefix e input lines F (Datatypes.S (List.length input)) s ws ltac:(lia)) as (k & E & A).
  destruct (loop e (Datatypes.S (List.length input)) read_file s input ws) as [[s1 o1] y]. cbn [snd] in X, A.
  assert (match t_file t with Some h => t_history t ++ h | None => t_history t end =
          t_history t ++ match t_file t with Some h => h | None => [] end) as TH by (destruct (t_file t); [reflexivity|symmetry; apply app_nil_r]).
  rewrite TH in X.
  set (h := fold_left remember (lines_read e (Datatypes.S (List.length input)) s input ws) _) in X.
  assert (y = why /\ t_history t' = h) as [-> TH'] by (destruct y; injection X as <- <- <- <-; split; reflexivity).
  split.
  - destruct why; try (exists k; split; [rewrite TH'; unfold h; rewrite E; reflexivity|discriminate]).
    exists (List.length (map chop lines)). split; [|rewrite map_length; lia].
    rewrite TH'. unfold h. rewrite (A eq_refl). f_equal. symmetry. apply (firstn_all (map chop lines)).
  - intros [-> | ->]; injection X as <- <- <-; cbn [t_completer t_delims t_file t_history]; auto.
Qed.
Print Assumptions C88_readline_after_the_session.

(** Finding: if the controller goes away (or another exception comes out), the engine's completer
    stays installed, and the history isn't saved. *)
Theorem C88_finding_not_restored :
  forall S (e : engine S) s input ws t s' out why t',
  run_interactive_gtp_session e true s input ws t = (s', out, why, t') ->
  why <> AtEof -> why <> AtEnd ->
  t_completer t' = Some (completer e) /\ t_delims t' = [] /\ t_file t' = t_file t.
Proof.
  intros S e s input ws t s' out why t' X N1 N2. unfold run_interactive_gtp_session in X. cbn [negb] in X.
  destruct (loop e (Datatypes.S (List.length input)) read_raw s input ws) as [[s1 o1] y]. cbn [snd] in X.
  destruct y; injection X as <- <- <- <-; try congruence; auto.
Qed.
Print Assumptions C88_finding_not_restored.

(** Completion: state by state, exactly the commands of the engine that begin with the text, in
    order, each followed by a space; then no more. *)
Theorem C88_completion :
  forall S (e : engine S) text, NoDup (dkeys (e_handlers e)) ->
  exists l, in_order l /\ (forall c, In c l <-> In c (dkeys (e_handlers e)) /\ exists r, c = text ++ r) /\
    forall state, completer e text state = match nth_error l state with Some c => Some (c ++ [char_sp]) | None => None end.
Proof.
  intros S e text N. exists (filter (starts_with text) (list_commands e)). split; [|split].
  - apply filter_in_order. apply sorted_in_order. exact N.
  - intros c. rewrite filter_In. unfold list_commands. rewrite sorted_In, starts_with_spec. reflexivity.
  - intros state. unfold completer. destruct (nth_error _ state); reflexivity.
Qed.
Print Assumptions C88_completion.

(** ** Examples *)
Definition demo_engine : engine nat := add_protocol_commands (add_command new_engine (str "protest")
  (User (fun n _ => (Datatypes.S n, GOk (Some (str "no")))))).
Example C88_demo_keys : NoDup (dkeys (e_handlers demo_engine)).
Proof. vm_compute. repeat constructor; intros H; repeat (destruct H as [H|H]; [discriminate|]); exact H. Qed.
Example C88_demo_completion : map (completer demo_engine (str "prot")) [0; 1; 2]%nat =
  [Some (str "protest "); Some (str "protocol_version "); None].
Proof. vm_compute. reflexivity. Qed.
Definition demo_input : bytes := str "protest" ++ [char_lf] ++ str "# note" ++ [char_lf] ++ str "2 protest" ++ [char_lf] ++ str "quit" ++ [char_lf] ++ str "protest".
Definition demo_terminal : terminal := mkTerminal None (str " ") [] false (Some [str "help"]) true.
Example C88_demo_quit :
  let r := run_interactive_gtp_session demo_engine true O demo_input [] demo_terminal in
  fst r = (2%nat, str "= no" ++ [char_lf; char_lf] ++ str "=2 no" ++ [char_lf; char_lf] ++ str "=" ++ [char_lf; char_lf], AtEnd) /\
  t_file (snd r) = Some (map str ["help"; "protest"; "# note"; "2 protest"; "quit"]%string) /\ t_delims (snd r) = str " ".
Proof. vm_compute. auto. Qed.
Example C88_demo_disconnected :
  let r := run_interactive_gtp_session demo_engine true O demo_input [WOk; WPipe] demo_terminal in
  fst r = (2%nat, str "= no" ++ [char_lf; char_lf], Disconnected) /\ t_file (snd r) = Some [str "help"] /\ t_delims (snd r) = [].
Proof. vm_compute. auto. Qed.
