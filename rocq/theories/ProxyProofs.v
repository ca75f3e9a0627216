(** Proofs about proxies (C64). *)
From Verif Require Import Base Bytes PyStr Dict CommonModel SgfPropsModel GtpModel GtpSpec GtpProofs GtpChannelProofs
  ControllerModel ControllerSpec ControllerProofs ProxyModel ProxySpec.

Lemma customised_get {S} (e0 : engine S) names e w : customised e0 names e -> ~ In w names ->
  dget w (e_handlers e) = dget w (e_handlers e0).
Proof.
  induction 1 as [|names e name h C IH|names e name C IH|names e b C IH]; intros N; [reflexivity| | |].
  - cbn [add_command e_handlers]. rewrite dget_dset_other; [apply IH; intros I; apply N; right; exact I|].
    intros ->. apply N. left. reflexivity.
  - cbn [remove_command e_handlers]. rewrite dget_ddel. destruct (bytes_eqb_spec w name) as [->|_]; [elim N; left; reflexivity|].
    apply IH. intros I; apply N; right; exact I.
  - exact (IH N).
Qed.

Lemma sent_as_clean t : sent_as t (clean_response t).
Proof. split; [reflexivity|exact (clean_of_neat t)]. Qed.

Lemma triple {A B C : Type} (a a' : A) (b b' : B) (c c' : C) : (a, b, c) = (a', b', c') -> a' = a /\ b' = b /\ c' = c.
Proof. intros H; injection H as -> -> ->. auto. Qed.

Section Proxies.
Context {X U : Type}.
Variable ch : channel X.
Variable tb : exn -> bytes.
Notation PX := (proxy X U).

Lemma back_end_get commands : forall (e : engine PX) w,
  dget w (e_handlers (add_back_end_commands ch tb e commands)) =
  if in_dec (list_eq_dec ascii_dec) w commands then Some (back_end_handler ch tb w) else dget w (e_handlers e).
Proof.
  induction commands as [|c commands IH]; intros e w; [reflexivity|].
  unfold add_back_end_commands. cbn [fold_left]. fold (add_back_end_commands ch tb (add_command e c (back_end_handler ch tb c)) commands).
  rewrite IH. destruct (in_dec (list_eq_dec ascii_dec) w commands) as [I|I].
  - destruct (in_dec (list_eq_dec ascii_dec) w (c :: commands)) as [_|N]; [reflexivity|]. elim N; right; exact I.
  - cbn [add_command e_handlers]. destruct (list_eq_dec ascii_dec w c) as [->|D].
    + rewrite dget_dset_same. destruct (in_dec (list_eq_dec ascii_dec) c (c :: commands)) as [_|N]; [reflexivity|]. elim N; left; reflexivity.
    + rewrite dget_dset_other by exact D. destruct (in_dec (list_eq_dec ascii_dec) w (c :: commands)) as [[E|J]|N]; [congruence|contradiction|reflexivity].
Qed.

Lemma make_engine_get commands w :
  dget w (e_handlers (@make_engine X U ch tb commands)) =
  if bytes_eqb w (str "gomill-passthrough") then Some (User (handle_passthrough ch tb))
  else if bytes_eqb w (str "quit") then Some (User (handle_quit ch tb))
  else if bytes_eqb w (str "protocol_version") then Some Protocol_version
  else if bytes_eqb w (str "list_commands") then Some (GtpModel.List_commands)
  else if bytes_eqb w (str "known_command") then Some Known_command
  else if in_dec (list_eq_dec ascii_dec) w commands then Some (back_end_handler ch tb w) else None.
Proof.
  unfold make_engine, add_protocol_commands. cbn [add_command e_handlers].
  rewrite !dget_dset. rewrite back_end_get. cbn [new_engine e_handlers dget].
  destruct (bytes_eqb w (str "gomill-passthrough")); [reflexivity|].
  destruct (bytes_eqb w (str "quit")); [reflexivity|].
  destruct (bytes_eqb w (str "protocol_version")); [reflexivity|].
  destruct (bytes_eqb w (str "list_commands")); [reflexivity|].
  destruct (bytes_eqb w (str "known_command")); reflexivity.
Qed.

Lemma make_engine_own commands w : ~ In w own_commands -> In w commands ->
  dget w (e_handlers (@make_engine X U ch tb commands)) = Some (back_end_handler ch tb w).
Proof.
  intros N I. rewrite make_engine_get.
  repeat match goal with |- context [bytes_eqb w ?k] => destruct (bytes_eqb_spec w k) as [->|_];
    [elim N; unfold own_commands; cbn [map In]; tauto|] end.
  destruct (in_dec (list_eq_dec ascii_dec) w commands); [reflexivity|contradiction].
Qed.
Lemma make_engine_pass commands :
  dget (str "gomill-passthrough") (e_handlers (@make_engine X U ch tb commands)) = Some (User (handle_passthrough ch tb)).
Proof. rewrite make_engine_get. reflexivity. Qed.
Lemma make_engine_quit commands :
  dget (str "quit") (e_handlers (@make_engine X U ch tb commands)) = Some (User (handle_quit ch tb)).
Proof. rewrite make_engine_get. reflexivity. Qed.

Lemma make_engine_keys commands w :
  In w (dkeys (e_handlers (@make_engine X U ch tb commands))) <-> In w own_commands \/ In w commands.
Proof.
  assert (H : In w (dkeys (e_handlers (@make_engine X U ch tb commands))) <-> dget w (e_handlers (@make_engine X U ch tb commands)) <> None).
  { split; intros H.
    - intros N. apply dget_None in N. contradiction.
    - destruct (in_dec (list_eq_dec ascii_dec) w (dkeys (e_handlers (@make_engine X U ch tb commands)))) as [I|I]; [exact I|].
      apply dget_None in I. contradiction. }
  rewrite H, make_engine_get.
  repeat match goal with |- context [bytes_eqb w ?k] => destruct (bytes_eqb_spec w k) as [->|?];
    [split; [intros _; left; unfold own_commands; cbn [map In]; tauto|discriminate]|] end.
  destruct (in_dec (list_eq_dec ascii_dec) w commands) as [I|I]; [split; [auto|discriminate]|].
  split; [congruence|]. intros [O|O]; [|contradiction]. unfold own_commands in O. cbn [map In] in O. intuition congruence.
Qed.

End Proxies.

Section Recorded.
Context {X U : Type}.
Variable ch : channel X.
Variable tb : exn -> bytes.
Notation PX := (proxy (X * list cevent) U).

(** Passing on a command. *)
Lemma pass_proof (p p' : PX) name aliases command args r : connected p name aliases ->
  pass_command (recorded ch) p command args = (p', r) ->
  exists evs, talked p p' evs /\ exchange (meaning aliases command) args evs /\
    (exists c c', px_back p = Some c /\ px_back p' = Some c' /\ c_bad c' = bad_after (c_bad c) evs) /\
    match evs with
    | [EvSend _ _ None; EvGet (inl (false, t))] => r = PRet t
    | [EvSend _ _ None; EvGet (inl (true, t))] => r = PBad t
    | [EvSend _ _ (Some (XChan k t))] | [EvSend _ _ None; EvGet (inr (XChan k t))] =>
        exists msg, r = PBack msg (Some (By_channel k)) /\ message_about name msg t
    | [EvSend _ _ (Some (XOther e))] | [EvSend _ _ None; EvGet (inr (XOther e))] => r = PRaise e
    | _ => False
    end.
Proof.
  intros (c & Pc & <- & <- & Cl). unfold pass_command. rewrite Pc.
  destruct (ControllerModel.do_command (recorded ch) c command args) as [c' r0] eqn:D.
  destruct (do_command_open ch c c' command args r0 Cl D) as (evs & T & Ex & O & (N & K & A & E) & Cl' & B).
  intros H; injection H as <- <-. exists evs.
  split; [exists c, c'; cbn; repeat (split; [solve [auto]|]); auto|]. split; [exact Ex|].
  split; [exists c, c'; auto|].
  inversion Ex as [[k t|e]|[[[|] t]|[k t|e]]]; subst evs; cbn in O.
  - destruct O as (msg & -> & M). eauto.
  - subst r0. reflexivity.
  - destruct O as (msg & -> & M). reflexivity.
  - subst r0. reflexivity.
  - destruct O as (msg & -> & M). eauto.
  - subst r0. reflexivity.
Qed.

(** The response for a handler's result. *)
Lemma run_user (e : engine PX) p command args f p' r : dget command (e_handlers e) = Some (User f) -> f p args = (p', r) ->
  run_command e p command args =
  (p', match r with
       | GQuit m => (false, clean_response m, true)
       | GFatal m => (true, clean_response (or_default m (str "unspecified fatal error")), true)
       | GError m => (true, clean_response (or_default m (str "unspecified error")), false)
       | GRaise m => (true, clean_response ((if e_fatal e then str "internal error; exiting" else str "internal error") ++ char_lf :: m), e_fatal e)
       | GOk None => (false, [], false)
       | GOk (Some t) => (false, clean_response t, false)
       end).
Proof.
  intros G F. unfold run_command, GtpModel.do_command. rewrite G. cbn [call_handler]. rewrite F.
  destruct r as [[t|]|m|m|m|m]; try reflexivity. destruct (e_fatal e); reflexivity.
Qed.

Lemma handle_proof (e : engine PX) p p' name aliases cmd cargs f command args is_error text ended :
  connected p name aliases ->
  dget cmd (e_handlers e) = Some (User f) -> f p cargs = handle_command (recorded ch) tb p command args ->
  run_command e p cmd cargs = (p', (is_error, text, ended)) ->
  exists evs, talked p p' evs /\ exchange (meaning aliases command) args evs /\
    (exists c c', px_back p = Some c /\ px_back p' = Some c' /\ c_bad c' = bad_after (c_bad c) evs) /\
    relayed name (e_fatal e) evs is_error text ended.
Proof.
  intros C G F R. unfold handle_command in F. destruct (pass_command (recorded ch) p command args) as [p1 r] eqn:P.
  destruct (pass_proof p p1 name aliases command args r C P) as (evs & Tk & Ex & Bd & Q).
  rewrite (run_user e p cmd cargs f _ _ G F) in R.
  assert (p' = p1) by exact (eq_sym (f_equal fst R)). subst p'.
  exists evs. split; [exact Tk|]. split; [exact Ex|]. split; [exact Bd|].
  assert (R2 := f_equal snd R). cbn [snd] in R2. clear R F P.
  destruct Tk as (c0 & _ & _ & _ & _ & _ & _ & _).
  inversion Ex as [[k t|x]|[[[|] t]|[k t|x]]]; subst evs; cbn [relayed].
  - destruct Q as (msg & -> & M). apply triple in R2; destruct R2 as (-> & -> & ->). split; [reflexivity|]. split; [reflexivity|]. exists msg. split; [exact M|].
    assert (or_default msg (str "unspecified fatal error") = msg) as ->; [|apply sent_as_clean].
    destruct msg; [|reflexivity]. destruct M as (w & M). destruct w, name; discriminate M.
  - subst r. apply triple in R2; destruct R2 as (-> & -> & ->). split; reflexivity.
  - subst r. apply triple in R2; destruct R2 as (-> & -> & ->). split; [reflexivity|]. split; [reflexivity|].
    destruct t as [|a t]; [reflexivity|]. apply sent_as_clean.
  - subst r. apply triple in R2; destruct R2 as (-> & -> & ->). split; [reflexivity|]. split; [apply sent_as_clean|reflexivity].
  - destruct Q as (msg & -> & M). apply triple in R2; destruct R2 as (-> & -> & ->). split; [reflexivity|]. split; [reflexivity|]. exists msg. split; [exact M|].
    assert (or_default msg (str "unspecified fatal error") = msg) as ->; [|apply sent_as_clean].
    destruct msg; [|reflexivity]. destruct M as (w & M). destruct w, name; discriminate M.
  - subst r. apply triple in R2; destruct R2 as (-> & -> & ->). split; reflexivity.
Qed.

Lemma forward_proof commands names (e : engine PX) p p' name aliases command args is_error text ended :
  customised (make_engine (recorded ch) tb commands) names e ->
  connected p name aliases -> In command commands -> ~ In command own_commands -> ~ In command names ->
  run_command e p command args = (p', (is_error, text, ended)) ->
  exists evs, talked p p' evs /\ exchange (meaning aliases command) args evs /\
    (exists c c', px_back p = Some c /\ px_back p' = Some c' /\ c_bad c' = bad_after (c_bad c) evs) /\
    relayed name (e_fatal e) evs is_error text ended.
Proof.
  intros Cu C I NO NN R. eapply (handle_proof e p p' name aliases command args _ command args); eauto.
  - rewrite (customised_get _ _ _ _ Cu NN). apply make_engine_own; assumption.
  - reflexivity.
Qed.

Lemma passthrough_proof commands names (e : engine PX) p p' name aliases command args is_error text ended :
  customised (make_engine (recorded ch) tb commands) names e ->
  connected p name aliases -> ~ In (str "gomill-passthrough") names ->
  run_command e p (str "gomill-passthrough") (command :: args) = (p', (is_error, text, ended)) ->
  exists evs, talked p p' evs /\ exchange (meaning aliases command) args evs /\
    (exists c c', px_back p = Some c /\ px_back p' = Some c' /\ c_bad c' = bad_after (c_bad c) evs) /\
    relayed name (e_fatal e) evs is_error text ended.
Proof.
  intros Cu C NN R. eapply (handle_proof e p p' name aliases _ (command :: args) _ command args); eauto.
  - rewrite (customised_get _ _ _ _ Cu NN). apply make_engine_pass.
  - reflexivity.
Qed.

Lemma passthrough_nothing commands names (e : engine PX) p :
  customised (make_engine (recorded ch) tb commands) names e -> ~ In (str "gomill-passthrough") names ->
  run_command e p (str "gomill-passthrough") [] = (p, (true, str "invalid arguments", false)).
Proof.
  intros Cu NN. rewrite (run_user e p _ [] (handle_passthrough (recorded ch) tb) p report_bad_arguments); try reflexivity.
  rewrite (customised_get _ _ _ _ Cu NN). apply make_engine_pass.
Qed.

(** 'quit'. *)
Lemma quit_proof commands names (e : engine PX) p p' name aliases args is_error text ended :
  customised (make_engine (recorded ch) tb commands) names e ->
  connected p name aliases -> ~ In (str "quit") names ->
  run_command e p (str "quit") args = (p', (is_error, text, ended)) ->
  exists evs, talked p p' evs /\ exchange (meaning aliases (str "quit")) [] evs /\
    (exists c c', px_back p = Some c /\ px_back p' = Some c' /\ (existsb unexpected evs = false -> c_bad c' = true)) /\
    quit_relayed name (e_fatal e) evs is_error text ended.
Proof.
  intros Cu C NN R.
  assert (G : dget (str "quit") (e_handlers e) = Some (User (handle_quit (recorded ch) tb))).
  { rewrite (customised_get _ _ _ _ Cu NN). apply make_engine_quit. }
  destruct (handle_quit (recorded ch) tb p args) as [p0 r0] eqn:Q.
  rewrite (run_user e p (str "quit") args _ _ _ G Q) in R.
  assert (p' = p0) by exact (eq_sym (f_equal fst R)). subst p0.
  assert (R2 := f_equal snd R). cbn [snd] in R2. clear R G.
  unfold handle_quit in Q. destruct (pass_command (recorded ch) p (str "quit") []) as [p1 r] eqn:P.
  destruct (pass_proof p p1 name aliases _ _ r C P) as (evs & Tk & Ex & (c & c1 & Pc & Pc1 & Bd) & W).
  exists evs.
  assert (Tk2 : forall p2, p2 = fst (expect_back_end_exit p1) -> talked p p2 evs /\
      exists c c', px_back p = Some c /\ px_back p2 = Some c' /\ c_bad c' = true).
  { intros p2 ->. unfold expect_back_end_exit. rewrite Pc1. cbn [fst]. split; [|exists c, (set_bad c1); auto].
    destruct Tk as (d & d' & E1 & E2 & Eu & Et & Rest). assert (d' = c1) by congruence. subst d'.
    exists d, (set_bad c1). cbn. auto 10. }
  assert (Tk1 : p' = p1 -> talked p p' evs) by (intros ->; exact Tk).
  assert (Low : p' = p1 -> texts low_level_error evs <> [] -> exists c c', px_back p = Some c /\ px_back p' = Some c' /\ (existsb unexpected evs = false -> c_bad c' = true)).
  { intros -> L. exists c, c1. split; [exact Pc|]. split; [exact Pc1|]. intros _. rewrite Bd. unfold bad_after.
    destruct (texts low_level_error evs); [congruence|apply orb_true_r]. }
  inversion Ex as [[k t|x]|[[[|] t]|[k t|x]]]; subst evs; cbn [quit_relayed].
  - destruct W as (msg & -> & M).
    assert (Z : or_default msg (str "unspecified fatal error") = msg).
    { destruct msg; [|reflexivity]. destruct M as (w & M). destruct w, name; discriminate M. }
    destruct k; injection Q as Q1 <-.
    + destruct (Tk2 p' (eq_sym Q1)) as (A & c2 & c3 & B1 & B2 & B3). split; [exact A|]. split; [exact Ex|].
      split; [exists c2, c3; auto|]. apply triple in R2; destruct R2 as (-> & -> & ->). auto.
    + subst p'. split; [exact Tk|]. split; [exact Ex|]. split; [apply Low; [reflexivity|discriminate]|]. apply triple in R2; destruct R2 as (-> & -> & ->).
      split; [reflexivity|]. split; [reflexivity|]. exists msg. rewrite Z. split; [exact M|apply sent_as_clean].
    + subst p'. split; [exact Tk|]. split; [exact Ex|]. split; [apply Low; [reflexivity|discriminate]|]. apply triple in R2; destruct R2 as (-> & -> & ->).
      split; [reflexivity|]. split; [reflexivity|]. exists msg. rewrite Z. split; [exact M|apply sent_as_clean].
    + subst p'. split; [exact Tk|]. split; [exact Ex|]. split; [apply Low; [reflexivity|discriminate]|]. apply triple in R2; destruct R2 as (-> & -> & ->).
      split; [reflexivity|]. split; [reflexivity|]. exists msg. rewrite Z. split; [exact M|apply sent_as_clean].
  - subst r. injection Q as Q1 <-. subst p'. split; [exact Tk|]. split; [exact Ex|]. split; [exists c, c1; split; [exact Pc|]; split; [exact Pc1|discriminate]|].
    apply triple in R2; destruct R2 as (-> & -> & ->). split; reflexivity.
  - subst r. injection Q as Q1 <-. destruct (Tk2 p' (eq_sym Q1)) as (A & c2 & c3 & B1 & B2 & B3). split; [exact A|]. split; [exact Ex|].
    split; [exists c2, c3; auto|]. apply triple in R2; destruct R2 as (-> & -> & ->). split; [reflexivity|]. split; [reflexivity|].
    destruct t as [|a t]; [reflexivity|apply sent_as_clean].
  - subst r. injection Q as Q1 <-. destruct (Tk2 p' (eq_sym Q1)) as (A & c2 & c3 & B1 & B2 & B3). split; [exact A|]. split; [exact Ex|].
    split; [exists c2, c3; auto|]. apply triple in R2; destruct R2 as (-> & -> & ->). split; [reflexivity|]. split; [apply sent_as_clean|reflexivity].
  - destruct W as (msg & -> & M).
    assert (Z : or_default msg (str "unspecified fatal error") = msg).
    { destruct msg; [|reflexivity]. destruct M as (w & M). destruct w, name; discriminate M. }
    destruct k; injection Q as Q1 <-.
    + destruct (Tk2 p' (eq_sym Q1)) as (A & c2 & c3 & B1 & B2 & B3). split; [exact A|]. split; [exact Ex|].
      split; [exists c2, c3; auto|]. apply triple in R2; destruct R2 as (-> & -> & ->). auto.
    + subst p'. split; [exact Tk|]. split; [exact Ex|]. split; [apply Low; [reflexivity|discriminate]|]. apply triple in R2; destruct R2 as (-> & -> & ->).
      split; [reflexivity|]. split; [reflexivity|]. exists msg. rewrite Z. split; [exact M|apply sent_as_clean].
    + subst p'. split; [exact Tk|]. split; [exact Ex|]. split; [apply Low; [reflexivity|discriminate]|]. apply triple in R2; destruct R2 as (-> & -> & ->).
      split; [reflexivity|]. split; [reflexivity|]. exists msg. rewrite Z. split; [exact M|apply sent_as_clean].
    + subst p'. split; [exact Tk|]. split; [exact Ex|]. split; [apply Low; [reflexivity|discriminate]|]. apply triple in R2; destruct R2 as (-> & -> & ->).
      split; [reflexivity|]. split; [reflexivity|]. exists msg. rewrite Z. split; [exact M|apply sent_as_clean].
  - subst r. injection Q as Q1 <-. subst p'. split; [exact Tk|]. split; [exact Ex|]. split; [exists c, c1; split; [exact Pc|]; split; [exact Pc1|discriminate]|].
    apply triple in R2; destruct R2 as (-> & -> & ->). split; reflexivity.
Qed.

(** Setting the back end. *)
Lemma set_back_end_proof (p p' : PX) c r : px_back p = None -> c_closed c = false ->
  set_back_end_controller (recorded ch) tb p c = (p', r) ->
  exists c' evs, px_back p' = Some c' /\ px_user p' = px_user p /\ trace c' = trace c ++ evs /\
    c_closed c' = false /\ c_name c' = c_name c /\ c_aliases c' = c_aliases c /\ c_errors c' = c_errors c /\
    c_bad c' = bad_after (c_bad c) evs /\
    exchange (meaning (c_aliases c) (str "list_commands")) [] evs /\
    match evs with
    | [EvSend _ _ None; EvGet (inl (false, text))] =>
        exists commands, r = PRet (make_engine (recorded ch) tb commands) /\
        forall w, In w commands <-> is_well_formed_gtp_word w = true /\ exists line, In line (split_on char_lf text) /\ w = strip line
    | [EvSend _ _ None; EvGet (inl (true, t))] => exists msg, r = PBack msg (Some By_response) /\ message_about (c_name c) msg t
    | [EvSend _ _ (Some (XChan k t))] | [EvSend _ _ None; EvGet (inr (XChan k t))] =>
        exists msg, r = PBack msg (Some (By_channel k)) /\ message_about (c_name c) msg t
    | [EvSend _ _ (Some (XOther e))] | [EvSend _ _ None; EvGet (inr (XOther e))] => r = PRaise e
    | _ => False
    end.
Proof.
  intros Pn Cl. unfold set_back_end_controller. rewrite Pn. unfold list_commands.
  destruct (ControllerModel.do_command (recorded ch) c (str "list_commands") []) as [c' r0] eqn:D.
  destruct (do_command_open ch c c' _ _ r0 Cl D) as (evs & T & Ex & O & (N & K & A & E) & Cl' & B).
  intros H. exists c', evs.
  assert (Hp : p' = mkProxy (Some c') (px_user p)).
  { destruct r0; exact (eq_sym (f_equal fst H)). }
  assert (H2 := f_equal snd H). clear H. subst p'. cbn [px_back px_user].
  do 8 (split; [solve [auto]|]). split; [exact Ex|].
  inversion Ex as [[k t|e]|[[[|] t]|[k t|e]]]; subst evs; cbn in O.
  - destruct O as (msg & -> & M). exists msg. split; [exact (eq_sym H2)|exact M].
  - subst r0. exact (eq_sym H2).
  - destruct O as (msg & -> & M). exists msg. split; [exact (eq_sym H2)|exact M].
  - subst r0. eexists. split; [exact (eq_sym H2)|]. intros w. rewrite filter_In, in_map_iff. split.
    + intros ((l & <- & I) & W). split; [exact W|]. eauto.
    + intros (W & l & I & ->). eauto.
  - destruct O as (msg & -> & M). exists msg. split; [exact (eq_sym H2)|exact M].
  - subst r0. exact (eq_sym H2).
Qed.

End Recorded.
