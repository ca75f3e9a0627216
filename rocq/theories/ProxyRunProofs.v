(** Running a proxy (C64): what happens between it and its back end. *)
From Verif Require Import Base Bytes PyStr Dict CommonModel SgfPropsModel GtpModel GtpSpec GtpProofs GtpChannelProofs GtpSessionProofs
  ControllerModel ControllerSpec ControllerProofs ProxyModel ProxySpec ProxyProofs.

Section Run.
Context {X U : Type}.
Variable ch : channel X.
Variable tb : exn -> bytes.
Notation PX := (proxy (X * list cevent) U).

Lemma talked_refl (p : PX) name aliases : connected p name aliases -> talked p p [].
Proof.
  intros (c & Pc & N & A & Cl). exists c, c. rewrite app_nil_r. auto 10.
Qed.
Lemma talked_trans (p p1 p2 : PX) a b : talked p p1 a -> talked p1 p2 b -> talked p p2 (a ++ b).
Proof.
  intros (c & c1 & P & P1 & U1 & T1 & C1 & N1 & A1 & E1) (d & d2 & Q & Q2 & U2 & T2 & C2 & N2 & A2 & E2).
  assert (d = c1) by congruence. subst d. exists c, d2.
  rewrite T2, T1, app_assoc. repeat split; congruence.
Qed.
Lemma talked_connected (p p1 : PX) evs name aliases : connected p name aliases -> talked p p1 evs -> connected p1 name aliases.
Proof.
  intros (c & P & N & A & Cl) (d & d1 & Q & Q1 & _ & _ & C1 & N1 & A1 & _). assert (d = c) by congruence. subst d.
  exists d1. repeat split; congruence.
Qed.
Definition bad_now (p : PX) : bool := match px_back p with Some c => c_bad c | None => false end.

Lemma relayed_low name f evs u args is_error text ended : exchange u args evs -> existsb unexpected evs = false -> relayed name f evs is_error text ended ->
  if ended then texts low_level_error evs <> [] else texts low_level_error evs = [].
Proof.
  intros Ex Un R. inversion Ex as [[k t|e]|[[[|] t]|[k t|e]]]; subst evs; cbn in R, Un; try discriminate Un.
  - destruct R as (_ & -> & _). discriminate.
  - destruct R as (_ & -> & _). reflexivity.
  - destruct R as (_ & _ & ->). reflexivity.
  - destruct R as (_ & -> & _). discriminate.
Qed.
Lemma quit_relayed_ended name f evs u args is_error text ended : exchange u args evs -> existsb unexpected evs = false ->
  quit_relayed name f evs is_error text ended -> ended = true.
Proof.
  intros Ex Un R. inversion Ex as [[k t|e]|[[[|] t]|[k t|e]]]; subst evs; cbn in R, Un; try discriminate Un; try (destruct k); tauto.
Qed.

Lemma step_proof commands fatal (p p' : PX) name aliases command args is_error text ended :
  connected p name aliases ->
  run_command (set_handler_exceptions_fatal (make_engine (recorded ch) tb commands) fatal) p command args = (p', (is_error, text, ended)) ->
  exists evs, talked p p' evs /\ existsb is_close evs = false /\
    (existsb unexpected evs = false ->
     if ended then bad_now p' = true else texts low_level_error evs = [] /\ bad_now p' = bad_now p).
Proof.
  intros C R. set (e := set_handler_exceptions_fatal _ _) in R.
  assert (Cu : customised (make_engine (recorded ch) tb commands) [] e) by (apply cu_fatal, cu_none).
  assert (Fw : forall u a evs, talked p p' evs -> exchange u a evs ->
    (exists c c', px_back p = Some c /\ px_back p' = Some c' /\ c_bad c' = bad_after (c_bad c) evs) ->
    relayed name (e_fatal e) evs is_error text ended ->
    exists evs, talked p p' evs /\ existsb is_close evs = false /\
    (existsb unexpected evs = false -> if ended then bad_now p' = true else texts low_level_error evs = [] /\ bad_now p' = bad_now p)).
  { intros u a evs Tk Ex (c & c' & P1 & P2 & B) Rl. exists evs. split; [exact Tk|]. split; [exact (exchange_no_close _ _ _ Ex)|].
    intros Un. pose proof (relayed_low _ _ _ _ _ _ _ _ Ex Un Rl) as L. unfold bad_now. rewrite P1, P2, B. unfold bad_after.
    destruct ended.
    - destruct (texts low_level_error evs); [congruence|apply orb_true_r].
    - rewrite L. split; [reflexivity|apply orb_false_r]. }
  assert (Nothing : p' = p -> ended = false -> exists evs, talked p p' evs /\ existsb is_close evs = false /\
    (existsb unexpected evs = false -> if ended then bad_now p' = true else texts low_level_error evs = [] /\ bad_now p' = bad_now p)).
  { intros -> ->. exists []. split; [exact (talked_refl p name aliases C)|]. split; [reflexivity|]. intros _. split; reflexivity. }
  destruct (list_eq_dec ascii_dec command (str "gomill-passthrough")) as [->|N1].
  { destruct args as [|cmd args].
    - rewrite (passthrough_nothing ch tb commands [] e p Cu (fun H => H)) in R. apply Nothing; congruence.
    - destruct (passthrough_proof ch tb commands [] e p p' name aliases cmd args _ _ _ Cu C (fun H => H) R) as (evs & A1 & A2 & A3 & A4).
      eapply Fw; eauto. }
  destruct (list_eq_dec ascii_dec command (str "quit")) as [->|N2].
  { destruct (quit_proof ch tb commands [] e p p' name aliases args _ _ _ Cu C (fun H => H) R) as (evs & A1 & A2 & (c & c' & B1 & B2 & B3) & A4).
    exists evs. split; [exact A1|]. split; [exact (exchange_no_close _ _ _ A2)|]. intros Un.
    rewrite (quit_relayed_ended _ _ _ _ _ _ _ _ A2 Un A4). unfold bad_now. rewrite B2. exact (B3 Un). }
  assert (G : dget command (e_handlers e) = if bytes_eqb command (str "protocol_version") then Some Protocol_version
     else if bytes_eqb command (str "list_commands") then Some (GtpModel.List_commands)
     else if bytes_eqb command (str "known_command") then Some Known_command
     else if in_dec (list_eq_dec ascii_dec) command commands then Some (back_end_handler (recorded ch) tb command) else None).
  { unfold e. cbn [set_handler_exceptions_fatal e_handlers]. rewrite make_engine_get.
    destruct (bytes_eqb_spec command (str "gomill-passthrough")); [contradiction|].
    destruct (bytes_eqb_spec command (str "quit")); [contradiction|]. reflexivity. }
  unfold run_command, GtpModel.do_command in R. rewrite G in R.
  destruct (bytes_eqb_spec command (str "protocol_version")) as [->|N3]; [cbn [call_handler] in R; apply Nothing; congruence|].
  destruct (bytes_eqb_spec command (str "list_commands")) as [->|N4]; [cbn [call_handler] in R; apply Nothing; congruence|].
  destruct (bytes_eqb_spec command (str "known_command")) as [->|N5]; [cbn [call_handler] in R; apply Nothing; congruence|].
  destruct (in_dec (list_eq_dec ascii_dec) command commands) as [I|I].
  - assert (R' : run_command e p command args = (p', (is_error, text, ended))).
    { unfold run_command, GtpModel.do_command. rewrite G. exact R. }
    assert (NO : ~ In command own_commands) by (unfold own_commands; cbn [map In]; intuition congruence).
    destruct (forward_proof ch tb commands [] e p p' name aliases command args is_error text ended Cu C I NO (fun H => H) R') as (evs & A1 & A2 & A3 & A4).
    eapply Fw; eauto.
  - apply Nothing; congruence.
Qed.

Lemma served_proof commands fatal (p p' : PX) name aliases lines responses b :
  served (set_handler_exceptions_fatal (make_engine (recorded ch) tb commands) fatal) p lines p' responses b -> connected p name aliases ->
  exists evs, talked p p' evs /\ existsb is_close evs = false /\
    (existsb unexpected evs = false ->
     if b then bad_now p' = true else texts low_level_error evs = [] /\ bad_now p' = bad_now p).
Proof.
  induction 1 as [s|s line lines s' out b NR Sv IH|s line lines id command args s1 er tx s' out b Rd Rc Sv IH|s line lines id command args s1 er tx Rd Rc]; intros C.
  - exists []. split; [exact (talked_refl _ _ _ C)|]. split; [reflexivity|]. intros _; split; reflexivity.
  - exact (IH C).
  - destruct (step_proof _ _ _ _ _ _ _ _ _ _ _ C Rc) as (e1 & T1 & N1 & B1).
    destruct (IH (talked_connected _ _ _ _ _ C T1)) as (e2 & T2 & N2 & B2).
    exists (e1 ++ e2). split; [exact (talked_trans _ _ _ _ _ T1 T2)|]. split; [rewrite existsb_app, N1, N2; reflexivity|].
    rewrite existsb_app. intros Un. apply orb_false_iff in Un. destruct Un as [U1 U2]. specialize (B1 U1). specialize (B2 U2). cbn in B1.
    destruct b; [exact B2|]. destruct B1 as [L1 Bd1], B2 as [L2 Bd2]. rewrite texts_app, L1, L2. split; [reflexivity|congruence].
  - destruct (step_proof _ _ _ _ _ _ _ _ _ _ _ C Rc) as (e1 & T1 & N1 & B1). exists e1. auto.
Qed.

(** [close]. *)
Lemma close_proof (p p' : PX) c r : px_back p = Some c -> c_closed c = false -> close (recorded ch) p = (p', r) ->
  exists c' evs new, px_back p' = Some c' /\ px_user p' = px_user p /\ trace c' = trace c ++ evs /\
    c_errors c' = c_errors c ++ new /\ Forall2 (message_about (c_name c)) new (texts trouble evs) /\
    (existsb unexpected evs = false ->
       c_closed c' = true /\
       r = (match c_errors c ++ new with [] => PRet tt | msgs => PBack (join [char_lf] msgs) None end) /\
       exists q x, evs = q ++ [EvClose x] /\ existsb is_close q = false /\
         (c_bad c = true -> q = []) /\
         (c_bad c = false -> exchange (meaning (c_aliases c) (str "quit")) [] q)).
Proof.
  intros Pc Cl. unfold close. rewrite Pc. destruct (safe_close (recorded ch) c) as [c' r0] eqn:S.
  destruct (effect_safe_close ch c c' r0 S) as (evs & Ef & _ & C2). intros H.
  destruct (ef_errors _ _ _ _ Ef) as (new & En & Fn).
  assert (Hp : p' = mkProxy (Some c') (px_user p)) by exact (eq_sym (f_equal fst H)).
  assert (H2 := f_equal snd H). cbn [snd] in H2. subst p'. exists c', evs, new. cbn [px_back px_user].
  split; [reflexivity|]. split; [reflexivity|]. split; [exact (ef_trace _ _ _ _ Ef)|]. split; [exact En|]. split; [exact Fn|].
  intros Un. destruct (C2 Cl Un) as (-> & Cc & q & x & E & Q1 & Q2). split; [exact Cc|]. split.
  - unfold retrieve_error_messages in H2. rewrite En in H2. exact (eq_sym H2).
  - exists q, x. split; [exact E|]. split; [|auto]. destruct (c_bad c) eqn:B.
    + rewrite (Q1 eq_refl). reflexivity.
    + exact (exchange_no_close _ _ _ (Q2 eq_refl)).
Qed.

Lemma run_proof commands fatal (p : PX) c input : px_back p = Some c -> c_closed c = false -> c_bad c = false ->
  forall p' out r, run (recorded ch) (set_handler_exceptions_fatal (make_engine (recorded ch) tb commands) fatal) p input = (p', out, r) ->
  exists c' evs, px_back p' = Some c' /\ trace c' = trace c ++ evs /\
  (existsb unexpected evs = false ->
   exists p1 b talk q x new,
    run_session (set_handler_exceptions_fatal (make_engine (recorded ch) tb commands) fatal) p input = (p1, out, Ok b) /\
    evs = talk ++ q ++ [EvClose x] /\ existsb is_close (talk ++ q) = false /\ c_closed c' = true /\
    (b = true -> q = []) /\
    (b = false -> texts low_level_error talk = [] /\ exchange (meaning (c_aliases c) (str "quit")) [] q) /\
    Forall2 (message_about (c_name c)) new (texts trouble (q ++ [EvClose x])) /\
    r = match c_errors c ++ new with [] => PRet tt | msgs => PBack (join [char_lf] msgs) None end).
Proof.
  intros Pc Cl Bd p' out r. unfold run. set (e := set_handler_exceptions_fatal _ _).
  destruct (session_served e p input) as (p1 & out1 & b & lines & responses & Q & _ & Sv & Eo). rewrite Q.
  assert (C : connected p (c_name c) (c_aliases c)) by (exists c; auto).
  destruct (served_proof commands fatal p p1 (c_name c) (c_aliases c) lines responses b Sv C) as (talk & Tk & NC & B).
  destruct Tk as (d & c1 & P1 & P2 & Us & T1 & C1 & N1 & A1 & E1). assert (d = c) by congruence. subst d.
  destruct (close (recorded ch) p1) as [p2 r2] eqn:Cp. intros H; injection H as <- <- <-.
  destruct (close_proof p1 p2 c1 r2 P2 C1 Cp) as (c' & ce & new & Pc' & _ & T2 & E2 & F2 & K).
  exists c', (talk ++ ce). split; [exact Pc'|]. split; [rewrite T2, T1, app_assoc; reflexivity|].
  rewrite existsb_app. intros Un. apply orb_false_iff in Un. destruct Un as [U1 U2].
  destruct (K U2) as (Cc & Er & q & x & Ec & NC2 & Q1 & Q2). specialize (B U1).
  exists p1, b, talk, q, x, new. split; [reflexivity|]. split; [rewrite Ec; reflexivity|].
  split; [rewrite existsb_app, NC, NC2; reflexivity|]. split; [exact Cc|].
  unfold bad_now in B. rewrite P2, Pc in B.
  split; [intros ->; exact (Q1 B)|]. split.
  - intros ->. destruct B as [L B2]. split; [exact L|]. rewrite A1 in Q2. apply Q2. congruence.
  - rewrite <- Ec. split; [rewrite <- N1; exact F2|]. rewrite <- E1. exact Er.
Qed.

End Run.
