(** A proxy answers as its back end does (C64). *)
From Verif Require Import Base Bytes PyStr Dict CommonModel SgfPropsModel DiagramProofs GtpModel GtpSpec GtpProofs GtpChannelProofs GtpSessionProofs
  ControllerModel ControllerSpec ControllerProofs ProxyModel ProxySpec ProxyProofs.

(** ** Sessions and lines *)

Lemma session_of_lines {S} (e : engine S) input lines : file_lines input lines -> forall s, exists s' b responses,
  run_session e s input = (s', List.concat responses, Ok b) /\ served e s lines s' responses b.
Proof.
  induction 1 as [|l NE NL|l rest ls NL F IH]; intros s.
  - exists s, false, []. split; [reflexivity|constructor].
  - unfold run_session. cbn [session]. rewrite readline_nolf by exact NL. destruct l as [|c l]; [congruence|].
    destruct (reads_dec (c :: l)) as [(id & command & args & R)|R].
    + rewrite (handle_line_reads e s _ _ _ _ R). destruct (run_command e s command args) as [s' [[x t] b]] eqn:RC. destruct b.
      * exists s', true, [framed x id t]. split; [cbn [List.concat]; rewrite app_nil_r; reflexivity|eapply sv_last; eauto].
      * cbn [List.length session readline]. exists s', false, [framed x id t]. split; [reflexivity|].
        eapply sv_command; eauto; constructor.
    + rewrite handle_line_silent by exact R. cbn [List.length session readline]. exists s, false, [].
      split; [reflexivity|]. apply sv_ignored; [exact R|constructor].
  - rewrite run_session_line by exact NL. destruct (reads_dec (l ++ [char_lf])) as [(id & command & args & R)|R].
    + rewrite (handle_line_reads e s _ _ _ _ R). destruct (run_command e s command args) as [s' [[x t] b]] eqn:RC. destruct b.
      * exists s', true, [framed x id t]. split; [cbn [List.concat]; rewrite app_nil_r; reflexivity|eapply sv_last; eauto].
      * destruct (IH s') as (s2 & b & rs & Q & V). rewrite Q. exists s2, b, (framed x id t :: rs).
        split; [reflexivity|]. eapply sv_command; eauto.
    + rewrite handle_line_silent by exact R. destruct (IH s) as (s2 & b & rs & Q & V). rewrite Q.
      exists s2, b, rs. split; [reflexivity|]. apply sv_ignored; auto.
Qed.

Lemma served_fun {S} (e : engine S) s lines s1 r1 b1 : served e s lines s1 r1 b1 ->
  forall s2 r2 b2, served e s lines s2 r2 b2 -> s2 = s1 /\ r2 = r1 /\ b2 = b1.
Proof.
  induction 1 as [s|s line lines s' out b NR Sv IH|s line lines id command args s1 er tx s' out b Rd Rc Sv IH|s line lines id command args s1 er tx Rd Rc];
    intros s2 r2 b2 H2.
  - inversion H2; subst; auto.
  - inversion H2 as [|a1 a2 a3 a4 a5 a6 NR2 Sv2|a1 a2 a3 a4 a5 a6 a7 a8 a9 a10 a11 a12 Rd2 Rc2 Sv2|a1 a2 a3 a4 a5 a6 a7 a8 a9 Rd2 Rc2]; subst.
    + exact (IH _ _ _ Sv2).
    + elim (NR _ _ _ Rd2).
    + elim (NR _ _ _ Rd2).
  - inversion H2 as [|a1 a2 a3 a4 a5 a6 NR2 Sv2|a1 a2 a3 a4 a5 a6 a7 a8 a9 a10 a11 a12 Rd2 Rc2 Sv2|a1 a2 a3 a4 a5 a6 a7 a8 a9 Rd2 Rc2]; subst.
    + elim (NR2 _ _ _ Rd).
    + destruct (reads_fun _ _ _ _ _ _ _ Rd Rd2) as (<- & <- & <-). rewrite Rc in Rc2.
      injection Rc2 as <- <- <-. destruct (IH _ _ _ Sv2) as (-> & -> & ->). auto.
    + destruct (reads_fun _ _ _ _ _ _ _ Rd Rd2) as (<- & <- & <-). rewrite Rc in Rc2. discriminate Rc2.
  - inversion H2 as [|a1 a2 a3 a4 a5 a6 NR2 Sv2|a1 a2 a3 a4 a5 a6 a7 a8 a9 a10 a11 a12 Rd2 Rc2 Sv2|a1 a2 a3 a4 a5 a6 a7 a8 a9 Rd2 Rc2]; subst.
    + elim (NR2 _ _ _ Rd).
    + destruct (reads_fun _ _ _ _ _ _ _ Rd Rd2) as (<- & <- & <-). rewrite Rc in Rc2. discriminate Rc2.
    + destruct (reads_fun _ _ _ _ _ _ _ Rd Rd2) as (<- & <- & <-). rewrite Rc in Rc2. injection Rc2 as <- <- <-. auto.
Qed.

(** The words of a line can be sent on. *)
Lemma payload_chars line t : payload line t -> Forall (fun c => c <> "#"%char /\ ~ control c) t.
Proof. induction 1; auto. Qed.
Lemma spaced_words t ws : spaced t ws -> forall (P : ascii -> Prop), Forall P t ->
  Forall (fun w => w <> [] /\ Forall (fun c => P c /\ ~ blank c) w) ws.
Proof.
  induction 1 as [s B|pre w post ws B NE W Bd Sp IH]; intros P F; [constructor|].
  rewrite !Forall_app in F. destruct F as (_ & Fw & Fp). constructor; [|exact (IH P Fp)].
  split; [exact NE|]. rewrite Forall_forall in *. intros c I. split; [exact (Fw c I)|exact (W c I)].
Qed.
Lemma plain_of c : (c <> "#"%char /\ ~ control c) /\ ~ blank c -> plain_char c.
Proof.
  intros ((A & B) & C). split; [exact A|]. unfold control in B. unfold blank in C.
  assert (ord c <> 32) by (intros E; apply C; left; destruct c as [[] [] [] [] [] [] [] []]; vm_compute in E; try discriminate E; reflexivity).
  assert (ord c <> 9) by (intros E; apply C; right; destruct c as [[] [] [] [] [] [] [] []]; vm_compute in E; try discriminate E; reflexivity).
  lia.
Qed.
Lemma line_words_plain line ws : line_words line ws -> Forall (fun w => w <> [] /\ Forall plain_char w) ws.
Proof.
  intros (t & P & Sp). apply payload_chars in P. pose proof (spaced_words _ _ Sp _ P) as F.
  eapply Forall_impl; [|exact F]. intros w [A B]. split; [exact A|]. eapply Forall_impl; [|exact B]. intros c. apply plain_of.
Qed.
Lemma reads_plain_words line id command args : reads line id command args -> Forall (fun w => w <> [] /\ Forall plain_char w) (command :: args).
Proof.
  intros R. inversion R as [w a L _|num n c a L _ NE _|num n c a L _]; subst.
  - exact (line_words_plain _ _ L).
  - apply line_words_plain in L. inversion L as [|? ? [_ F] G]; subst. constructor; [|exact G]. split; [exact NE|].
    apply Forall_app in F. apply F.
  - apply line_words_plain in L. inversion L; assumption.
Qed.

(** ** Channels that carry an engine's commands and responses *)

Section Carries.
Context {X T : Type}.
Variable ch : channel X.
Variable be0 : engine T.
Notation be := (add_protocol_commands be0).
Variable ok : bytes -> list bytes -> Prop.
Variable R : X -> T -> Prop.
Hypothesis Carries : forall x t command args t' is_error text ended, R x t -> ok command args ->
  run_command be t command args = (t', (is_error, text, ended)) ->
  exists x1 x2, ch_send ch x command args = (x1, None) /\ ch_get ch x1 = (x2, inl (is_error, text)) /\
    (ended = false -> R x2 t').
Hypothesis Behaved : well_behaved be.

Lemma ask_proof c t command args t' is_error text ended : c_closed c = false -> c_aliases c = [] ->
  R (c_chan c) t -> ok command args -> run_command be t command args = (t', (is_error, text, ended)) ->
  exists c', c_closed c' = false /\ c_aliases c' = [] /\ (ended = false -> R (c_chan c') t') /\
    exists msg, ControllerModel.do_command ch c command args =
      (c', if is_error then CBad msg (Some (command, args, text)) else CRet text).
Proof.
  intros Cl Al Rx O Rc. destruct (Carries _ _ _ _ _ _ _ _ Rx O Rc) as (x1 & x2 & S & G & K).
  unfold ControllerModel.do_command. rewrite Cl. cbv zeta. rewrite Al. change (translate [] command) with command.
  change (c_chan (not_first c)) with (c_chan c). rewrite S, G.
  exists (with_chan x2 (not_first c)). split; [exact Cl|]. split; [exact Al|]. split; [exact K|].
  destruct is_error; [eexists; reflexivity|exists []; reflexivity].
Qed.

Context {U : Type}.
Variable tb : exn -> bytes.
Variable commands names : list bytes.
Hypothesis Same : forall w, In w commands <-> In w (dkeys (e_handlers be)).
Variable e : engine (proxy X U).
Hypothesis Cu : customised (make_engine ch tb commands) names e.

Definition stands (p : proxy X U) (t : T) : Prop :=
  exists c, px_back p = Some c /\ c_closed c = false /\ c_aliases c = [] /\ R (c_chan c) t.

Lemma run_user' (p : proxy X U) command args f p' r : dget command (e_handlers e) = Some (User f) -> f p args = (p', r) ->
  run_command e p command args =
  (p', match r with
       | GQuit m => (false, clean_response m, true)
       | GFatal m => (true, clean_response (or_default m (str "unspecified fatal error")), true)
       | GError m => (true, clean_response (or_default m (str "unspecified error")), false)
       | GRaise m => (true, clean_response ((if e_fatal e then str "internal error; exiting" else str "internal error") ++ char_lf :: m), e_fatal e)
       | GOk None => (false, [], false)
       | GOk (Some t) => (false, clean_response t, false)
       end).
Proof.
  intros G F. unfold run_command, GtpModel.do_command. rewrite G. cbn [call_handler]. rewrite F.
  destruct r as [[t|]|m|m|m|m]; try reflexivity. destruct (e_fatal e); reflexivity.
Qed.

Lemma step_alike p t command args t' is_error text ended : stands p t ->
  alike (dkeys (e_handlers be)) names command args -> ok command args ->
  run_command be t command args = (t', (is_error, text, ended)) ->
  exists p', run_command e p command args = (p', (is_error, text, ended)) /\ (ended = false -> stands p' t').
Proof.
  intros (c & Pc & Cl & Al & Rx) (I & NN & NL & NP & AQ & AK) O Rc.
  destruct (protocol_commands be0 t args) as (Bq & Bv & _ & _ & Bk & Bk0 & _ & _).
  destruct (Behaved _ _ _ _ _ _ _ Rc) as (Nt & _ & Ne & Nd).
  destruct (list_eq_dec ascii_dec command (str "quit")) as [->|D1].
  { pose proof (AQ eq_refl) as Eargs. subst args. rewrite Bq in Rc. injection Rc as <- <- <- <-.
    destruct (ask_proof c t (str "quit") [] t false [] true Cl Al Rx O Bq) as (c' & Cl' & Al' & _ & msg & D).
    exists (mkProxy (Some (set_bad c')) (px_user p)). split; [|discriminate].
    rewrite (run_user' p (str "quit") [] (handle_quit ch tb) (mkProxy (Some (set_bad c')) (px_user p)) (GQuit [])); [reflexivity| |].
    - rewrite (customised_get _ _ _ _ Cu NN). apply make_engine_quit.
    - unfold handle_quit, pass_command. rewrite Pc, D. reflexivity. }
  destruct (list_eq_dec ascii_dec command (str "protocol_version")) as [->|D2].
  { rewrite Bv in Rc. assert (t' = t) by congruence. subst t'. exists p. split.
    - unfold run_command, GtpModel.do_command. rewrite (customised_get _ _ _ _ Cu NN), make_engine_get. cbn [call_handler].
      replace (bytes_eqb (str "protocol_version") (str "gomill-passthrough")) with false by reflexivity.
      replace (bytes_eqb (str "protocol_version") (str "quit")) with false by reflexivity.
      replace (bytes_eqb (str "protocol_version") (str "protocol_version")) with true by reflexivity.
      cbn [call_handler]. change (clean_response (str "2")) with (str "2"). congruence.
    - intros _. exists c. auto. }
  destruct (list_eq_dec ascii_dec command (str "known_command")) as [->|D3].
  { specialize (AK eq_refl).
    assert (G : dget (str "known_command") (e_handlers e) = Some Known_command).
    { rewrite (customised_get _ _ _ _ Cu NN), make_engine_get. reflexivity. }
    destruct args as [|w rest].
    - rewrite Bk0 in Rc. assert (t' = t) by congruence. subst t'. exists p. split.
      + unfold run_command, GtpModel.do_command. rewrite G. cbn [call_handler format_gtp_boolean].
        change (clean_response (str "false")) with (str "false"). congruence.
      + intros _. exists c. auto.
    - destruct (AK w rest eq_refl) as [W1 W2]. rewrite Bk in Rc. assert (t' = t) by congruence. subst t'. exists p. split.
      + unfold run_command, GtpModel.do_command. rewrite G. cbn [call_handler].
        assert (Dm : dmem w (e_handlers e) = if in_dec (list_eq_dec ascii_dec) w (dkeys (e_handlers be)) then true else false).
        { unfold dmem. rewrite (customised_get _ _ _ _ Cu W2). clear Rc.
          pose proof (@make_engine_keys X U ch tb commands w) as Mk.
          pose proof (protocol_commands be0 t []) as (_ & _ & Pk & _).
          destruct (in_dec (list_eq_dec ascii_dec) w (dkeys (e_handlers be))) as [J|J].
          - destruct (dget w (e_handlers (make_engine ch tb commands))) eqn:Z; [reflexivity|]. apply dget_None in Z.
            elim Z. apply Mk. right. apply Same. exact J.
          - destruct (dget w (e_handlers (make_engine ch tb commands))) eqn:Z; [|reflexivity]. exfalso.
            assert (K : In w (dkeys (e_handlers (make_engine (U := U) ch tb commands)))).
            { destruct (in_dec (list_eq_dec ascii_dec) w (dkeys (e_handlers (make_engine (U := U) ch tb commands)))) as [K|K]; [exact K|].
              apply dget_None in K. congruence. }
            apply Mk in K. destruct K as [K|K]; [|apply Same in K; contradiction].
            apply J, Pk. unfold own_commands in K. cbn [map In] in K |- *. intuition congruence. }
        rewrite Dm. destruct (in_dec (list_eq_dec ascii_dec) w (dkeys (e_handlers be))); cbn [format_gtp_boolean].
        * change (clean_response (str "true")) with (str "true"). congruence.
        * change (clean_response (str "false")) with (str "false"). congruence.
      + intros _. exists c. auto. }
  destruct (ask_proof c t command args t' is_error text ended Cl Al Rx O Rc) as (c' & Cl' & Al' & K & msg & D).
  assert (ended = false). { destruct ended; [|reflexivity]. destruct (Nd eq_refl). contradiction. } subst ended.
  exists (mkProxy (Some c') (px_user p)). split.
  - assert (G : dget command (e_handlers e) = Some (back_end_handler ch tb command)).
    { rewrite (customised_get _ _ _ _ Cu NN). apply make_engine_own; [|apply Same; exact I].
      unfold own_commands. cbn [map In]. intuition congruence. }
    rewrite (run_user' p command args _ (mkProxy (Some c') (px_user p)) (if is_error then GError text else GOk (Some text)) G).
    + destruct is_error; cbn iota.
      * assert (or_default text (str "unspecified error") = text) as -> by (destruct text; [elim (Ne eq_refl); reflexivity|reflexivity]).
        rewrite (clean_of_neat _ Nt). reflexivity.
      * rewrite (clean_of_neat _ Nt). reflexivity.
    + unfold handle_command, pass_command. rewrite Pc, D. destruct is_error; reflexivity.
  - intros _. exists c'. auto.
Qed.

Lemma served_alike t lines t' responses b : served be t lines t' responses b -> forall p, stands p t ->
  (forall line id command args, In line lines -> reads line id command args ->
     alike (dkeys (e_handlers be)) names command args /\ ok command args) ->
  exists p', served e p lines p' responses b.
Proof.
  induction 1 as [s|s line lines s' out b NR Sv IH|s line lines id command args s1 er tx s' out b Rd Rc Sv IH|s line lines id command args s1 er tx Rd Rc];
    intros p St H.
  - exists p. constructor.
  - destruct (IH p St) as (p' & Sv'); [intros l i c a J; apply H; right; exact J|]. exists p'. apply sv_ignored; auto.
  - destruct (H line id command args) as [A O]; [left; reflexivity|exact Rd|].
    destruct (step_alike p s command args s1 er tx false St A O Rc) as (p1 & Rp & St1).
    destruct (IH p1 (St1 eq_refl)) as (p' & Sv'); [intros l i c a J; apply H; right; exact J|].
    exists p'. eapply sv_command; eauto.
  - destruct (H line id command args) as [A O]; [left; reflexivity|exact Rd|].
    destruct (step_alike p s command args s1 er tx true St A O Rc) as (p1 & Rp & _).
    exists p1. eapply sv_last; eauto.
Qed.

Lemma session_alike p t input lines : stands p t -> file_lines input lines ->
  (forall line id command args, In line lines -> reads line id command args ->
     alike (dkeys (e_handlers be)) names command args /\ ok command args) ->
  exists p' t' out b, run_session be t input = (t', out, Ok b) /\ run_session e p input = (p', out, Ok b).
Proof.
  intros St F H. destruct (session_of_lines be input lines F t) as (t' & b & rs & Q & Sv).
  destruct (served_alike t lines t' rs b Sv p St H) as (p' & Sp).
  destruct (session_of_lines e input lines F p) as (p2 & b2 & rs2 & Q2 & Sp2).
  destruct (served_fun _ _ _ _ _ _ Sp _ _ _ Sp2) as (-> & -> & ->).
  exists p', t', (List.concat rs), b. auto.
Qed.

End Carries.

(** ** The two channels *)

Section Channels.
Context {T : Type}.
Variable be0 : engine T.
Notation be := (add_protocol_commands be0).

Definition internal_at (x : internal T) (t : T) : Prop := i_state x = t /\ i_outstanding x = [] /\ i_ended x = false.

Lemma internal_carries x t command args t' is_error text ended : internal_at x t -> sendable command args = true ->
  run_command be t command args = (t', (is_error, text, ended)) ->
  exists x1 x2, ch_send (internal_channel be) x command args = (x1, None) /\
    ch_get (internal_channel be) x1 = (x2, inl (is_error, text)) /\ (ended = false -> internal_at x2 t').
Proof.
  intros (<- & O & E) S Rc. cbn [internal_channel ch_send ch_get]. unfold internal_send. rewrite S, E. cbn [negb].
  do 2 eexists. split; [reflexivity|]. unfold internal_get. cbn [i_ended i_outstanding i_state]. rewrite O. cbn [app].
  rewrite Rc. split; [reflexivity|]. intros ->. repeat split.
Qed.

Variable s0 : T.
Variable broken peeks : bool.
Hypothesis Behaved : well_behaved be.

Definition pipe_at (x : linebased) (t : T) : Prop :=
  exists cs, Forall (fun c => transmissible (fst c) (snd c)) cs /\ l_sent x = transcript cs /\
    GtpChannelProofs.after be s0 cs = (t, false) /\ l_read x = List.length (frames (answers be s0 cs)).

Lemma lstrip_none text : (forall c r, text = c :: r -> is_blank c = false) -> lstrip_blank text = text.
Proof. intros H. destruct text as [|c r]; [reflexivity|]. cbn. rewrite (H c r eq_refl). reflexivity. Qed.

Lemma pipe_carries x t command args t' is_error text ended : pipe_at x t -> transmissible command args ->
  run_command be t command args = (t', (is_error, text, ended)) ->
  exists x1 x2, ch_send (pipe_channel be s0 broken peeks) x command args = (x1, None) /\
    ch_get (pipe_channel be s0 broken peeks) x1 = (x2, inl (is_error, text)) /\ (ended = false -> pipe_at x2 t').
Proof.
  intros (cs & F & Sn & Af & Rd) Tr Rc. cbn [pipe_channel ch_send ch_get]. unfold linebased_send.
  rewrite (transmissible_sendable _ _ Tr), Sn, (run_session_transcript be s0 cs F), Af. cbn [negb snd andb option_map].
  do 2 eexists. split; [reflexivity|].
  assert (F2 : Forall (fun c => transmissible (fst c) (snd c)) (cs ++ [(command, args)])).
  { apply Forall_app. split; [exact F|]. constructor; [exact Tr|constructor]. }
  assert (An : answers be s0 (cs ++ [(command, args)]) = answers be s0 cs ++ [(is_error, text)]).
  { rewrite answers_app, Af. cbn [snd fst answers]. rewrite Rc. destruct ended; reflexivity. }
  assert (Aft : GtpChannelProofs.after be s0 (cs ++ [(command, args)]) = (t', ended)).
  { rewrite GtpChannelProofs.after_app, Af. cbn [snd fst GtpChannelProofs.after]. rewrite Rc. destruct ended; reflexivity. }
  destruct (Behaved _ _ _ _ _ _ _ Rc) as (Nt & Nb & _ & _).
  assert (Fr : frames (answers be s0 (cs ++ [(command, args)])) = frames (answers be s0 cs) ++ framed is_error None text).
  { rewrite An, frames_app. unfold frames at 2. cbn [map List.concat fst snd]. rewrite app_nil_r. reflexivity. }
  rewrite (linebased_get_next be s0 peeks _ (transcript (cs ++ [(command, args)])) (frames (answers be s0 (cs ++ [(command, args)]))) ended is_error text []).
  - rewrite (lstrip_none text Nb). cbn [as_reply]. split; [reflexivity|]. intros ->. exists (cs ++ [(command, args)]).
    split; [exact F2|]. split; [reflexivity|]. split; [exact Aft|]. cbn [l_read List.length]. lia.
  - cbn [l_sent]. rewrite transcript_snoc. reflexivity.
  - rewrite (run_session_transcript be s0 _ F2), Aft. eauto.
  - cbn [l_read]. rewrite Rd, Fr, skipn_app, skipn_all, Nat.sub_diag, app_nil_r. reflexivity.
  - exact Nt.
Qed.

End Channels.

(** ** Starting a proxy *)

Section Starting.
Context {X T : Type}.
Variable ch : channel X.
Variable be0 : engine T.
Notation be := (add_protocol_commands be0).
Variable ok : bytes -> list bytes -> Prop.
Variable R : X -> T -> Prop.
Hypothesis Carries : forall x t command args t' is_error text ended, R x t -> ok command args ->
  run_command be t command args = (t', (is_error, text, ended)) ->
  exists x1 x2, ch_send ch x command args = (x1, None) /\ ch_get ch x1 = (x2, inl (is_error, text)) /\
    (ended = false -> R x2 t').
Hypothesis Behaved : well_behaved be.
Hypothesis ND : NoDup (dkeys (e_handlers be0)).
Hypothesis Words : Forall command_word (dkeys (e_handlers be)).
Hypothesis Ok : ok (str "list_commands") [].

Lemma word_well_formed w : command_word w -> is_well_formed_gtp_word w = true.
Proof.
  intros [NE F]. unfold is_well_formed_gtp_word. destruct w as [|c w]; [congruence|]. apply Forall_forallb.
  eapply Forall_impl; [|exact F]. intros a [A B]. unfold word_char. lia.
Qed.
Lemma word_stripped w : command_word w -> strip w = w.
Proof.
  intros [_ F]. apply strip_clean. apply Forall_forallb. eapply Forall_impl; [|exact F]. intros a [A B].
  unfold is_space. lia.
Qed.

Lemma start_proof {U} tb (u : U) x s name : R x s ->
  exists p commands, set_back_end_controller ch tb (new_proxy u) (new_controller x name) = (p, PRet (make_engine ch tb commands)) /\
    (forall w, In w commands <-> In w (dkeys (e_handlers be))) /\ stands R p s.
Proof.
  intros Rx. destruct (protocol_commands be0 s []) as (_ & _ & Pk & _ & _ & _ & _ & L).
  assert (NDb : NoDup (dkeys (e_handlers be))).
  { unfold add_protocol_commands, add_command. cbn [e_handlers]. repeat apply dset_NoDup. exact ND. }
  destruct (L NDb Words) as (l & _ & In_l & Rc).
  destruct (ask_proof ch be0 ok R Carries (new_controller x name) s (str "list_commands") [] s false _ false eq_refl eq_refl Rx Ok Rc)
    as (c' & Cl & Al & K & msg & D).
  unfold set_back_end_controller, new_proxy. cbn [px_back px_user]. unfold list_commands. rewrite D.
  assert (Fl : Forall command_word l).
  { apply Forall_forall. intros w I. apply In_l in I. rewrite Forall_forall in Words. exact (Words w I). }
  assert (E : filter is_well_formed_gtp_word (map strip (split_on char_lf (join [char_lf] l))) = l).
  { rewrite split_on_join.
    - rewrite (map_ext_in strip (fun w => w)), map_id.
      + apply filter_id. eapply Forall_impl; [|exact Fl]. exact word_well_formed.
      + intros w I. rewrite Forall_forall in Fl. apply word_stripped, Fl, I.
    - intros E. assert (I : In (str "quit") l) by (apply In_l, Pk; left; reflexivity). rewrite E in I. destruct I.
    - eapply Forall_impl; [|exact Fl]. intros w W. exact (word_no_lf w W). }
  rewrite E. exists (mkProxy (Some c') u), l. split; [reflexivity|]. split; [exact In_l|].
  exists c'. split; [reflexivity|]. auto.
Qed.

End Starting.
