(** Property theorems for Gtp_controller (C45). *)
From Verif Require Import Base Bytes PyStr Dict SgfPropsModel GtpModel ControllerModel ControllerSpec ControllerProofs.

(** In all of these the channel [ch] is arbitrary: each of its methods may do anything. *)

(** One [do_command] on an open controller: exactly one command is sent (what the alias stands
    for, with the arguments given), exactly one response is read if it could be sent, and the
    outcome is the engine's response, BadGtpResponse for a failure response, or the channel's
    error with a message that names the engine and ends with the error's text. *)
Theorem C45_do_command :
  forall (X : Type) (ch : channel X) c c' cmd args r,
  c_closed c = false -> do_command (recorded ch) c cmd args = (c', r) ->
  exists evs, trace c' = trace c ++ evs /\ exchange (meaning (c_aliases c) cmd) args evs /\
    outcome (c_name c) (meaning (c_aliases c) cmd) args evs r.
Proof.
  intros X ch c c' cmd args r Cl D.
  destruct (do_command_open ch c c' cmd args r Cl D) as (evs & T & Ex & O & _). exists evs. auto.
Qed.
Print Assumptions C45_do_command.

(** The channel is marked bad exactly when there has been a low-level error. *)
Theorem C45_bad_channel :
  forall (X : Type) (ch : channel X) c, reached ch c ->
  (c_bad c = true <-> texts low_level_error (trace c) <> []).
Proof. exact @bad_iff. Qed.
Print Assumptions C45_bad_channel.

(** [safe_do_command]: nothing is sent if there was a low-level error before, or the channel is
    closed; a low-level error is not propagated. *)
Theorem C45_safe_do_command :
  forall (X : Type) (ch : channel X) c c' cmd args r,
  reached ch c -> safe_do_command (recorded ch) c cmd args = (c', r) ->
  exists evs, trace c' = trace c ++ evs /\
    (c_closed c = true \/ texts low_level_error (trace c) <> [] -> evs = [] /\ r = CRet None /\ c' = c) /\
    (c_closed c = false -> texts low_level_error (trace c) = [] ->
       exchange (meaning (c_aliases c) cmd) args evs /\
       exists r0, outcome (c_name c) (meaning (c_aliases c) cmd) args evs r0 /\
         r = match r0 with
             | CRet text => CRet (Some text)
             | CBad m g => CBad m g
             | CChan _ _ => CRet None
             | CExn e => CExn e
             end) /\
    (forall k m, r <> CChan k m).
Proof.
  intros X ch c c' cmd args r R D.
  destruct (effect_safe_do ch (Safe_do cmd args) c c' cmd args r) as (evs & Ef & _ & _ & Sh & Op); auto; try discriminate.
  pose proof (bad_iff ch c R) as Bi.
  exists evs. split; [exact (ef_trace _ _ _ _ Ef)|]. split; [|split].
  - intros H. destruct Sh as (A & B & C); [rewrite Bi; exact H|]. auto.
  - intros Cl L. destruct Op as [Ex (r0 & O & E)]; [exact Cl| |].
    + destruct (c_bad c); [elim (proj1 Bi eq_refl); exact L|reflexivity].
    + split; [exact Ex|]. exists r0. auto.
  - intros k m E.
    assert (Dec : (c_closed c = true \/ c_bad c = true) \/ (c_closed c = false /\ c_bad c = false))
      by (destruct (c_closed c), (c_bad c); auto).
    destruct Dec as [S|[Cl Nb]].
    + destruct (Sh S) as (_ & Er & _). congruence.
    + destruct (Op Cl Nb) as [_ (r0 & _ & Er)]. destruct r0; congruence.
Qed.
Print Assumptions C45_safe_do_command.

(** [safe_known_command] returns a boolean, whatever the low-level errors. *)
Theorem C45_safe_known_command :
  forall (X : Type) (ch : channel X) c c' cmd r,
  reached ch c -> safe_known_command (recorded ch) c cmd = (c', r) ->
  exists evs, trace c' = trace c ++ evs /\
    (c_closed c = true \/ texts low_level_error (trace c) <> [] -> evs = []) /\
    (forall k m, r <> CChan k m) /\ (forall m g, r <> CBad m g) /\
    (existsb unexpected evs = false -> exists b, r = CRet b).
Proof.
  intros X ch c c' cmd r R D.
  assert (P : perform (recorded ch) (Safe_known cmd) c = (c', snd (lift VBool (c', r)))).
  { cbn. unfold lift. rewrite D. reflexivity. }
  pose proof (effect_known ch (Safe_known cmd) c c' cmd _ (or_intror eq_refl) P) as G. cbn [lift snd] in G.
  pose proof (bad_iff ch c R) as Bi.
  destruct (dget cmd (c_known c)) as [b|].
  - destruct G as [-> G]. exists []. split; [rewrite app_nil_r; reflexivity|]. split; [auto|].
    split; [|split]; try (intros; intros ->; discriminate G).
    intros _. exists b. destruct r; cbn in G; congruence.
  - destruct G as (evs & Ef & _ & G2 & _ & G4). exists evs. split; [exact (ef_trace _ _ _ _ Ef)|].
    specialize (G2 eq_refl). split; [intros H; apply G2; rewrite Bi; exact H|].
    assert (Dec : (c_closed c = true \/ c_bad c = true) \/ (c_closed c = false /\ c_bad c = false))
      by (destruct (c_closed c), (c_bad c); auto).
    destruct Dec as [S|[Cl Nb]].
    + destruct (G2 S) as [_ E]. split; [|split]; try (intros; intros ->; discriminate E).
      intros _. exists false. destruct r; cbn in E; congruence.
    + destruct (G4 Cl (fun _ => Nb)) as [_ G5].
      split; [intros k m ->; destruct G5 as [E _]; discriminate E|]. split; [intros m g ->; exact G5|].
      intros U. destruct r as [b| | |e]; [exists b; reflexivity|contradiction| |congruence].
      destruct G5 as [E _]; discriminate E.
Qed.
Print Assumptions C45_safe_known_command.

(** [safe_close] on an open controller: 'quit' is sent if and only if there was no low-level
    error before, the channel is then closed exactly once, nothing is propagated, and the
    controller is closed.  On a closed one it does nothing. *)
Theorem C45_safe_close :
  forall (X : Type) (ch : channel X) c c' r,
  reached ch c -> safe_close (recorded ch) c = (c', r) ->
  exists evs, trace c' = trace c ++ evs /\
    (c_closed c = true -> c' = c /\ r = CRet tt) /\
    (c_closed c = false -> existsb unexpected evs = false ->
       r = CRet tt /\ c_closed c' = true /\
       exists q x, evs = q ++ [EvClose x] /\
         (texts low_level_error (trace c) <> [] -> q = []) /\
         (texts low_level_error (trace c) = [] -> exchange (meaning (c_aliases c) (str "quit")) [] q)).
Proof.
  intros X ch c c' r R D. pose proof (bad_iff ch c R) as Bi.
  destruct (effect_safe_close ch c c' r D) as (evs & Ef & C1 & C2). exists evs.
  split; [exact (ef_trace _ _ _ _ Ef)|]. split; [exact C1|].
  intros Cl U. destruct (C2 Cl U) as (Er & Cl' & q & x & E & Q1 & Q2).
  split; [exact Er|]. split; [exact Cl'|]. exists q, x. split; [exact E|]. split.
  - intros H. apply Q1, Bi, H.
  - intros H. apply Q2. destruct (c_bad c); [elim (proj1 Bi eq_refl); exact H|reflexivity].
Qed.
Print Assumptions C45_safe_close.

(** [close] closes the channel, or propagates the error (leaving the controller open). *)
Theorem C45_close :
  forall (X : Type) (ch : channel X) c c' r,
  c_closed c = false -> close (recorded ch) c = (c', r) ->
  exists x, trace c' = trace c ++ [EvClose x] /\ (c_closed c' = true <-> x = None) /\ (x = None <-> r = CRet tt) /\
    (forall text, x = Some (XChan KTransport text) ->
       exists msg, r = CChan KTransport msg /\ message_about (c_name c) msg text).
Proof.
  intros X ch c c' r Cl D. destruct (effect_close ch c c' r D) as (evs & Ef & _ & H).
  destruct (H Cl) as (x & -> & Cc & M). exists x. split; [exact (ef_trace _ _ _ _ Ef)|].
  split; [rewrite Cc; destruct x; split; congruence|]. split.
  - destruct x as [[[| | |] text|e]|]; split; intros; try congruence. destruct M as (msg & -> & _). discriminate.
  - intros text ->. exact M.
Qed.
Print Assumptions C45_close.

(** Once a controller is closed nothing more happens on its channel: every later call leaves it
    alone, and [do_command] and [close] raise StandardError. *)
Theorem C45_nothing_after_closing :
  forall (X : Type) (ch : channel X) c os c' rs,
  c_closed c = true -> after (recorded ch) c os c' rs ->
  trace c' = trace c /\ c_closed c' = true /\
  forall i o r, nth_error os i = Some o -> nth_error rs i = Some r ->
    match o with
    | Do _ _ | Check_version | List_commands | Close => r = CExn standard_error
    | Safe_do _ _ | Safe_close => r = CRet VNone
    | _ => True
    end.
Proof.
  intros X ch c os c' rs Cl A. induction A as [|os c1 rs o c2 r A IH P].
  - split; [reflexivity|]. split; [exact Cl|]. intros [|i]; discriminate.
  - destruct IH as (T & C1 & H). destruct (effect_any ch o c1 c2 r P) as (evs & Ef).
    destruct (ef_closed _ _ _ _ Ef C1) as [-> C2].
    split; [rewrite (ef_trace _ _ _ _ Ef), app_nil_r; exact T|]. split; [exact C2|].
    assert (L : List.length os = List.length rs).
    { clear -A. induction A as [|? ? ? ? ? ? A0 IH0]; [reflexivity|]. rewrite !app_length, IH0. reflexivity. }
    intros i o' r' N1 N2. destruct (Nat.lt_ge_cases i (List.length os)) as [Lt|Ge].
    + rewrite nth_error_app1 in N1, N2 by lia. exact (H i o' r' N1 N2).
    + rewrite nth_error_app2 in N1, N2 by lia.
      destruct (i - List.length os)%nat as [|n] eqn:Z; [|destruct n; discriminate N1].
      rewrite <- L, Z in N2. cbn in N1, N2. injection N1 as <-. injection N2 as <-.
      clear -P C1. destruct o; auto; cbn in P.
      * rewrite (do_command_closed ch c1 _ _ C1) in P. injection P as _ <-. reflexivity.
      * rewrite (safe_do_shut ch c1 _ _ (or_introl C1)) in P. injection P as _ <-; reflexivity.
      * unfold check_protocol_version in P. rewrite (do_command_closed ch c1 _ _ C1) in P. injection P as _ <-; reflexivity.
      * unfold list_commands in P. rewrite (do_command_closed ch c1 _ _ C1) in P. injection P as _ <-; reflexivity.
      * unfold close in P. rewrite C1 in P. injection P as _ <-; reflexivity.
      * unfold safe_close in P. rewrite C1 in P. injection P as _ <-; reflexivity.
Qed.
Print Assumptions C45_nothing_after_closing.

(** Closing over a whole history: a controller is closed exactly when the last thing that
    happened on its channel was its being closed for good; the channel is closed successfully at
    most once, and that is the last thing that happens. *)
Theorem C45_closed_once :
  forall (X : Type) (ch : channel X) c, reached ch c ->
  (c_closed c = false -> ~ In (EvClose None) (trace c)) /\
  (c_closed c = true -> exists t x, trace c = t ++ [EvClose x] /\ ~ In (EvClose None) t).
Proof.
  intros X ch c R. destruct (good_reached ch c R) as [_ O C]. auto.
Qed.
Print Assumptions C45_closed_once.

(** If [close] is not used (but [safe_close] may be, any number of times) the channel's close
    method is called at most once, even if it fails. *)
Theorem C45_safe_close_once :
  forall (X : Type) (ch : channel X) x name os c rs,
  after (recorded ch) (new_controller (x, []) name) os c rs -> ~ In Close os ->
  existsb unexpected (trace c) = false ->
  exists t, existsb is_close t = false /\
    (c_closed c = false -> trace c = t) /\ (c_closed c = true -> exists e, trace c = t ++ [EvClose e]).
Proof.
  intros X ch x name os c rs A. induction A as [|os c1 rs o c2 r A IH P]; intros NI U.
  - exists []. split; [reflexivity|]. split; [reflexivity|discriminate].
  - destruct (effect_any ch o c1 c2 r P) as (evs & Ef). pose proof (ef_trace _ _ _ _ Ef) as T.
    rewrite T, existsb_app, orb_false_iff in U. destruct U as [U1 U2].
    destruct IH as (t & NC & O & C); [intros I; apply NI, in_or_app; auto|exact U1|].
    destruct (c_closed c1) eqn:Z.
    + destruct (ef_closed _ _ _ _ Ef Z) as [E Z2]. subst evs. rewrite app_nil_r in T. exists t. split; [exact NC|].
      split; [congruence|]. intros _. destruct (C eq_refl) as (e & Te). exists e. congruence.
    + assert (No : o <> Close) by (intros ->; apply NI, in_or_app; right; left; reflexivity).
      rewrite (O eq_refl) in T. destruct (c_closed c2) eqn:Z2.
      * destruct (ef_closing _ _ _ _ Ef Z Z2) as (e0 & e & E & NC0). subst evs. exists (t ++ e0).
        split; [rewrite existsb_app, NC, NC0; reflexivity|]. split; [discriminate|].
        intros _. exists e. rewrite T, app_assoc. reflexivity.
      * exists (t ++ evs). split; [|split; [auto|discriminate]].
        rewrite existsb_app, NC. exact (ef_open_safe _ _ _ _ Ef Z2 No U2).
Qed.
Print Assumptions C45_safe_close_once.

(** Errors set aside.  Each safe call adds exactly one message for each low-level error it met
    (for [safe_close]: also for a failure response to 'quit' and for an error closing), which
    names the engine and ends with the error's text; other calls add none... *)
Theorem C45_errors_set_aside :
  forall (X : Type) (ch : channel X) c o c' r,
  perform (recorded ch) o c = (c', r) ->
  exists evs new, trace c' = trace c ++ evs /\
    retrieve_error_messages c' = retrieve_error_messages c ++ new /\
    Forall2 (message_about (c_name c)) new
      (match o with
       | Safe_do _ _ | Safe_known _ => texts low_level_error evs
       | Safe_close => texts trouble evs
       | _ => []
       end).
Proof.
  intros X ch c o c' r P. destruct (effect_any ch o c c' r P) as (evs & Ef).
  destruct (ef_errors _ _ _ _ Ef) as (new & E & F). exists evs, new. split; [exact (ef_trace _ _ _ _ Ef)|]. auto.
Qed.
Print Assumptions C45_errors_set_aside.

(** ... and no message is ever lost. *)
Theorem C45_errors_kept :
  forall (X : Type) (ch : channel X) c os c' rs,
  after (recorded ch) c os c' rs ->
  exists new, retrieve_error_messages c' = retrieve_error_messages c ++ new.
Proof. intros X ch c os c' rs A. exact (proj2 (errors_grow ch c os c' rs A)). Qed.
Print Assumptions C45_errors_kept.

(** Known commands.  Once a call has answered, every later call for the same command, after
    whatever other calls (even if the channel has been closed or the aliases changed), gives the
    same answer and sends nothing. *)
Theorem C45_known_command_cached :
  forall (X : Type) (ch : channel X) c c1 c2 o o' cmd b os rs,
  asks o cmd -> perform (recorded ch) o c = (c1, CRet (VBool b)) ->
  after (recorded ch) c1 os c2 rs -> asks o' cmd ->
  perform (recorded ch) o' c2 = (c2, CRet (VBool b)).
Proof.
  intros X ch c c1 c2 o o' cmd b os rs As P A As'.
  assert (G : dget cmd (c_known c1) = Some b).
  { pose proof (effect_known ch o c c1 cmd _ As P) as G. destruct (dget cmd (c_known c)) as [b'|] eqn:Z.
    - destruct G as [-> G]. congruence.
    - destruct G as (evs & _ & G & _). exact G. }
  pose proof (known_kept ch c1 os c2 rs cmd b A G) as G2.
  destruct (perform (recorded ch) o' c2) as [c3 r3] eqn:P3.
  pose proof (effect_known ch o' c2 c3 cmd r3 As' P3) as G3. rewrite G2 in G3. destruct G3 as [-> ->]. reflexivity.
Qed.
Print Assumptions C45_known_command_cached.

(** The first time (no earlier call for this command having answered), the engine is asked once,
    about what the command stands for; the answer is True exactly for the response "true". *)
Theorem C45_known_command_asks :
  forall (X : Type) (ch : channel X) x name os rs c cmd c' r,
  after (recorded ch) (new_controller (x, []) name) os c rs ->
  (forall i o b, nth_error os i = Some o -> asks o cmd -> nth_error rs i <> Some (CRet (VBool b))) ->
  c_closed c = false -> known_command (recorded ch) c cmd = (c', r) ->
  exists evs, trace c' = trace c ++ evs /\
    exchange (meaning (c_aliases c) (str "known_command")) [meaning (c_aliases c) cmd] evs /\
    match r with
    | CRet b => b = says_yes evs /\ existsb unexpected evs = false
    | CBad _ _ => False
    | CChan _ _ => texts low_level_error evs <> []
    | CExn _ => existsb unexpected evs = true
    end.
Proof.
  intros X ch x name os rs c cmd c' r A Fresh Cl D.
  assert (P : perform (recorded ch) (Known cmd) c = (c', snd (lift VBool (c', r)))).
  { cbn. unfold lift. rewrite D. reflexivity. }
  pose proof (effect_known ch (Known cmd) c c' cmd _ (or_introl eq_refl) P) as G. cbn [lift snd] in G.
  destruct (dget cmd (c_known c)) as [b|] eqn:Z.
  - destruct (known_was_asked ch _ os c rs cmd b A eq_refl Z) as (i & o & N1 & As & N2). elim (Fresh i o b N1 As N2).
  - destruct G as (evs & Ef & _ & _ & _ & G). destruct (G Cl ltac:(discriminate)) as [Ex G5].
    exists evs. split; [exact (ef_trace _ _ _ _ Ef)|]. split; [exact Ex|].
    destruct r; cbn in G5.
    + destruct G5 as [E U]. split; [congruence|exact U].
    + exact G5.
    + exact (proj2 G5).
    + exact G5.
Qed.
Print Assumptions C45_known_command_asks.

(** Aliases: only [set_gtp_aliases] changes them. *)
Theorem C45_aliases :
  forall (X : Type) (ch : channel X) c o c' r,
  perform (recorded ch) o c = (c', r) ->
  c_aliases c' = match o with Set_aliases a => a | _ => c_aliases c end /\ c_name c' = c_name c.
Proof.
  intros X ch c o c' r P. destruct (effect_any ch o c c' r P) as (evs & Ef).
  split; [exact (ef_aliases _ _ _ _ Ef)|exact (ef_name _ _ _ _ Ef)].
Qed.
Print Assumptions C45_aliases.

(** [check_protocol_version] complains exactly about an engine that reports a version other than
    2 (a failure response is accepted), and [list_commands] returns the lines of the response
    that could be commands. *)
Theorem C45_check_protocol_version :
  forall (X : Type) (ch : channel X) c c' r,
  c_closed c = false -> check_protocol_version (recorded ch) c = (c', r) ->
  exists evs, trace c' = trace c ++ evs /\
    exchange (meaning (c_aliases c) (str "protocol_version")) [] evs /\
    (forall v, evs = [EvSend (meaning (c_aliases c) (str "protocol_version")) [] None; EvGet (inl (false, v))] ->
       (r = CRet tt <-> exists m k, py_float v = Ok (m, k) /\ m = 2 * 10 ^ Z.of_nat k) /\
       (r <> CRet tt -> exists msg, r = CBad msg None)) /\
    (forall v, evs = [EvSend (meaning (c_aliases c) (str "protocol_version")) [] None; EvGet (inl (true, v))] -> r = CRet tt).
Proof.
  intros X ch c c' r Cl D. unfold check_protocol_version in D.
  destruct (do_command (recorded ch) c (str "protocol_version") []) as [c1 r1] eqn:DD.
  destruct (do_command_open ch c c1 _ _ r1 Cl DD) as (evs & T & Ex & O & _).
  assert (c' = c1). { destruct r1 as [v| | |]; [destruct (is_version_2 v)| | |]; congruence. } subst c1.
  exists evs. split; [exact T|]. split; [exact Ex|]. split.
  - intros v ->. cbn in O. subst r1. unfold is_version_2 in D.
    destruct (py_float v) as [[m k]|e] eqn:F.
    + destruct (Z.eqb_spec m (2 * 10 ^ Z.of_nat k)) as [E|E]; injection D as <-.
      * split; [split; auto; intros _; exists m, k; auto|]. congruence.
      * split; [split; [discriminate|]; intros (m' & k' & F' & E'); congruence|]. intros _. eexists; reflexivity.
    + injection D as <-. split; [split; [discriminate|]; intros (m' & k' & F' & E'); congruence|]. intros _. eexists; reflexivity.
  - intros v ->. cbn in O. destruct O as (msg & -> & _). congruence.
Qed.
Print Assumptions C45_check_protocol_version.

Theorem C45_list_commands :
  forall (X : Type) (ch : channel X) c c' r,
  c_closed c = false -> list_commands (recorded ch) c = (c', r) ->
  exists evs, trace c' = trace c ++ evs /\
    exchange (meaning (c_aliases c) (str "list_commands")) [] evs /\
    (forall l, r = CRet l -> exists text,
       evs = [EvSend (meaning (c_aliases c) (str "list_commands")) [] None; EvGet (inl (false, text))] /\
       forall w, In w l <-> is_well_formed_gtp_word w = true /\ exists line, In line (split_on char_lf text) /\ w = strip line).
Proof.
  intros X ch c c' r Cl D. unfold list_commands in D.
  destruct (do_command (recorded ch) c (str "list_commands") []) as [c1 r1] eqn:DD.
  destruct (do_command_open ch c c1 _ _ r1 Cl DD) as (evs & T & Ex & O & _).
  assert (c' = c1). { destruct r1; congruence. } subst c1.
  exists evs. split; [exact T|]. split; [exact Ex|]. intros l ->.
  destruct (outcome_cases _ _ _ _ _ Ex O) as [(k & text & msg & _ & _ & _ & -> & _)|[(e & _ & _ & _ & -> & _)|
    [(text & Ee & -> & _)|(text & msg & _ & -> & _)]]]; try discriminate D.
  exists text. split; [exact Ee|]. injection D as <-. intros w. rewrite filter_In, in_map_iff.
  split.
  - intros [(line & <- & I) W]. split; [exact W|]. exists line. auto.
  - intros [W (line & I & ->)]. split; [exists line; auto|exact W].
Qed.
Print Assumptions C45_list_commands.

(** ** Examples *)

(** An engine that knows two commands, and whose connection breaks at the third command. *)
Definition demo_channel : channel nat :=
  mkChannel _ (fun n cmd args => (S n, if Nat.eqb n 2 then Some (XChan KTransport (str "broken pipe")) else None))
              (fun n => (n, inl (Nat.eqb n 2, if Nat.eqb n 2 then str "illegal move" else str "true")))
              (fun n => (n, Some (XChan KTransport (str "wait failed")))).
Definition demo_start := new_controller (0%nat, @nil cevent) (str "player one").
Definition demo_step (o : call) (x : controller (nat * list cevent) * list (cres answer)) :=
  let (c, r) := perform (recorded demo_channel) o (fst x) in (c, snd x ++ [r]).
Definition demo_run (os : list call) := fold_left (fun x o => demo_step o x) os (demo_start, []).

Example C45_demo_results :
  let (c, rs) := demo_run [Set_aliases [(str "bad", str "terrible")]; Known (str "bad"); Safe_do (str "play") [str "b"; str "A1"];
                           Safe_known (str "bad"); Safe_do (str "genmove") [str "w"]; Safe_do (str "name") [];
                           Safe_known (str "other"); Safe_close; Safe_close; Do (str "quit") []] in
  rs = [CRet VNone; CRet (VBool true);
        CBad (str "failure response from 'play b A1' to player one:" ++ [char_lf] ++ str "illegal move")
             (Some (str "play", [str "b"; str "A1"], str "illegal move"));
        CRet (VBool true); CRet VNone; CRet VNone; CRet (VBool false); CRet VNone; CRet VNone; CExn standard_error] /\
  trace c = [EvSend (str "known_command") [str "terrible"] None; EvGet (inl (false, str "true"));
             EvSend (str "play") [str "b"; str "A1"] None; EvGet (inl (true, str "illegal move"));
             EvSend (str "genmove") [str "w"] (Some (XChan KTransport (str "broken pipe")));
             EvClose (Some (XChan KTransport (str "wait failed")))] /\
  retrieve_error_messages c =
    [str "transport error sending 'genmove w' to player one:" ++ [char_lf] ++ str "broken pipe";
     str "error closing player one:" ++ [char_lf] ++ str "wait failed"] /\
  c_closed c = true /\ c_bad c = true /\ existsb unexpected (trace c) = false.
Proof. vm_compute. repeat split. Qed.

(** [close] may fail, leaving the controller open; it can then be closed again. *)
Example C45_demo_failed_close :
  let (c, rs) := demo_run [Close; Safe_close] in
  filter is_close (trace c) = [EvClose (Some (XChan KTransport (str "wait failed"))); EvClose (Some (XChan KTransport (str "wait failed")))].
Proof. vm_compute. reflexivity. Qed.

(** The demonstration controllers are reached controllers. *)
Lemma demo_run_reached os : reached demo_channel (fst (demo_run os)).
Proof.
  unfold demo_run. assert (G : forall x : controller (nat * list cevent) * list (cres answer), reached demo_channel (fst x) ->
    reached demo_channel (fst (fold_left (fun x o => demo_step o x) os x))).
  { induction os as [|o os IH]; intros x R; [exact R|]. cbn [fold_left]. apply IH.
    unfold demo_step. destruct (perform (recorded demo_channel) o (fst x)) as [c r] eqn:P. cbn.
    exact (reached_step _ _ _ _ _ R P). }
  apply G. exists 0%nat, (str "player one"), [], []. constructor.
Qed.
Example C45_demo_reached_bad :
  exists c, reached demo_channel c /\ c_closed c = false /\ texts low_level_error (trace c) = [str "broken pipe"].
Proof.
  exists (fst (demo_run [Do (str "a") []; Safe_known (str "b"); Safe_do (str "c") []])).
  split; [apply demo_run_reached|]. vm_compute. split; reflexivity.
Qed.
