(** C84: the mogo wrapper. *)
From Verif Require Import Base Bytes PyStr Dict CommonModel GtpModel GtpSpec ControllerModel ControllerSpec ControllerProofs
  ProxyModel ProxySpec ProxyProofs KgsSpec MogoModel.

(** The command line: the first parameter must name one of the three sizes; otherwise nothing is
    launched. *)
Theorem C84_command_line argv n :
  size_parameter argv = Some n <->
  exists rest, (argv = str "--9" :: rest /\ n = str "9") \/ (argv = str "--13" :: rest /\ n = str "13") \/ (argv = str "--19" :: rest /\ n = str "19").
Proof.
  split.
  - unfold size_parameter. destruct argv as [|a rest]; [discriminate|]. cbn [existsb].
    destruct (bytes_eqb_spec a (str "--9")) as [->|N9]; [intros H; injection H as <-; exists rest; left; split; reflexivity|].
    destruct (bytes_eqb_spec a (str "--13")) as [->|N13]; [intros H; injection H as <-; exists rest; right; left; split; reflexivity|].
    destruct (bytes_eqb_spec a (str "--19")) as [->|N19]; [intros H; injection H as <-; exists rest; right; right; split; reflexivity|].
    discriminate.
  - intros (rest & [[-> ->]|[[-> ->]|[-> ->]]]); reflexivity.
Qed.
Print Assumptions C84_command_line.

Section Mogo.
Context {X : Type}.
Variable ch : channel X.
Variable tb : exn -> bytes.
Notation PX := (proxy (X * list cevent) unit).
Notation E0 l := (@make_engine _ unit (recorded ch) tb l).
Notation ME n l := (add_mogo_commands n (E0 l)).

Theorem C84_not_launched (launched : X * list cevent + bytes) argv : size_parameter argv = None ->
  start (recorded ch) tb launched argv = (new_proxy tt, inr (Exit_message (str "mogo_wrapper: first parameter must be --9, --13, or --19"))).
Proof. intros H. unfold start. rewrite H. reflexivity. Qed.

Lemma mogo_customised n l : customised (E0 l) [str "boardsize"; str "version"] (ME n l).
Proof. unfold add_mogo_commands. apply cu_add. apply cu_add. apply cu_none. Qed.
Lemma mogo_boardsize n l : dget (str "boardsize") (e_handlers (ME n l)) = Some (User (handle_boardsize n)).
Proof. unfold add_mogo_commands. cbn [add_command e_handlers]. apply dget_dset_same. Qed.
Lemma mogo_version n l : dget (str "version") (e_handlers (ME n l)) = Some (User handle_version).
Proof. unfold add_mogo_commands. cbn [add_command e_handlers]. rewrite dget_dset_other by discriminate. apply dget_dset_same. Qed.

Lemma mogo_fatal n l : e_fatal (ME n l) = false.
Proof.
  cbn [add_mogo_commands add_command e_fatal make_engine add_protocol_commands].
  unfold add_back_end_commands. assert (H : forall (e : engine PX) m, e_fatal e = false ->
    e_fatal (fold_left (fun e command => add_command e command (back_end_handler (recorded ch) tb command)) m e) = false).
  { intros e m. revert e. induction m as [|a m IH]; intros e H; [exact H|]. cbn [fold_left]. apply IH. exact H. }
  apply H. reflexivity.
Qed.

Definition here (p : PX) (evs : list cevent) : Prop := connected p (str "back end") [] /\ events p = evs.

Lemma pass_connected (p : PX) name aliases command args p' r : connected p name aliases ->
  pass_command (recorded ch) p command args = (p', r) -> connected p' name aliases.
Proof.
  intros C P. destruct (pass_proof ch p p' name aliases command args r C P) as (evs & T & _).
  destruct C as (c & Pc & Nm & Al & Cl). destruct T as (c0 & c' & P0 & P' & _ & _ & Cl' & Nm' & Al' & _).
  assert (c0 = c) by congruence. subst c0. exists c'. repeat split; congruence.
Qed.

Lemma start_proof x argv n p r : size_parameter argv = Some n -> start (recorded ch) tb (inl (x, [])) argv = (p, r) ->
  (exists l listing t, r = inl (ME n l) /\
     (forall w, In w l <-> is_well_formed_gtp_word w = true /\ exists line, In line (split_on char_lf listing) /\ w = strip line) /\
     here p (answered (str "list_commands") [] listing ++ answered (str "boardsize") [n] t)) \/
  (exists e, r = inr e /\
     match e with
     | Exit_message _ => False
     | Bad_response m => exists listing, events p = answered (str "list_commands") [] listing ++ failed (str "boardsize") [n] m
     | Back_end_error m => exists t, message_about (str "back end") m t /\
         (broke (events p) t \/ events p = failed (str "list_commands") [] t)
     | Unhandled _ => astray (events p)
     end).
Proof.
  intros SP H. unfold start in H. rewrite SP in H. unfold set_back_end_subprocess in H.
  destruct (set_back_end_controller (recorded ch) tb (new_proxy tt) (new_controller (x, []) (str "back end"))) as [p1 r1] eqn:S1.
  destruct (set_back_end_proof ch tb (new_proxy tt) p1 (new_controller (x, []) (str "back end")) r1 eq_refl eq_refl S1)
    as (c & evs1 & Pc & Us & Tr & Cl & Nm & Al & _ & _ & Ex & M).
  assert (H1 : here p1 evs1).
  { split; [exists c; repeat split; assumption|]. unfold events. rewrite Pc, Tr. reflexivity. }
  change (meaning (c_aliases (new_controller (x, []) (str "back end"))) (str "list_commands")) with (str "list_commands") in Ex.
  change (c_name (new_controller (x, []) (str "back end"))) with (str "back end") in M.
  inversion Ex as [[k t|e]|[[[|] t]|[k t|e]]]; subst evs1; cbv iota in M.
  - destruct M as (msg & -> & Mg). right. apply pair_equal_spec in H as [<- <-]. eexists. split; [reflexivity|]. cbv iota.
    destruct H1 as (_ & ->). exists t. split; [exact Mg|]. left. eexists [], _. split; reflexivity.
  - subst r1. right. apply pair_equal_spec in H as [<- <-]. eexists. split; [reflexivity|]. cbv iota.
    destruct H1 as (_ & ->). eexists [], _. split; reflexivity.
  - destruct M as (msg & -> & Mg). right. apply pair_equal_spec in H as [<- <-]. eexists. split; [reflexivity|]. cbv iota.
    destruct H1 as (_ & ->). exists t. split; [exact Mg|]. right. reflexivity.
  - destruct M as (l & -> & Il). destruct (pass_command (recorded ch) p1 (str "boardsize") [n]) as [p2 r2] eqn:B.
    apply pair_equal_spec in H as [<- <-].
    destruct H1 as (C1 & E1). pose proof (pass_connected _ _ _ _ _ _ _ C1 B) as C2.
    destruct (pass_proof ch p1 p2 (str "back end") [] _ _ r2 C1 B) as (evs & T & Ex2 & _ & A).
    change (meaning [] (str "boardsize")) with (str "boardsize") in Ex2.
    assert (E2 : events p2 = answered (str "list_commands") [] t ++ evs).
    { destruct T as (c0 & c' & P0 & P' & _ & Tr' & _). unfold events in *. rewrite P0 in E1. rewrite P', Tr', E1. reflexivity. }
    inversion Ex2 as [[k u|e]|[[[|] u]|[k u|e]]]; subst evs; cbv iota in A.
    + destruct A as (msg & -> & Mg). right. eexists. split; [reflexivity|]. cbv iota. rewrite E2. exists u. split; [exact Mg|]. left.
      eexists (_ ++ []), _. split; [rewrite app_nil_r; reflexivity|reflexivity].
    + subst r2. right. eexists. split; [reflexivity|]. cbv iota. rewrite E2. eexists _, _. split; reflexivity.
    + subst r2. right. eexists. split; [reflexivity|]. cbv iota. rewrite E2. exists t. reflexivity.
    + subst r2. left. exists l, t, u. split; [reflexivity|]. split; [exact Il|]. split; [exact C2|exact E2].
    + destruct A as (msg & -> & Mg). right. eexists. split; [reflexivity|]. cbv iota. rewrite E2. exists u. split; [exact Mg|]. left.
      eexists (_ ++ [_]), _. split; [rewrite <- app_assoc; reflexivity|reflexivity].
    + subst r2. right. eexists. split; [reflexivity|]. cbv iota. rewrite E2. eexists (_ ++ [_]), _. split; [rewrite <- app_assoc; reflexivity|reflexivity].
  - destruct M as (msg & -> & Mg). right. apply pair_equal_spec in H as [<- <-]. eexists. split; [reflexivity|]. cbv iota.
    destruct H1 as (_ & ->). exists t. split; [exact Mg|]. left. eexists [_], _. split; reflexivity.
  - subst r1. right. apply pair_equal_spec in H as [<- <-]. eexists. split; [reflexivity|]. cbv iota.
    destruct H1 as (_ & ->). eexists [_], _. split; reflexivity.
Qed.

(** If it starts, mogo has been asked for its commands and has accepted the board size, and nothing
    else; the commands of the wrapper are mogo's, the proxy's own, and the two it answers itself. *)
Theorem C84_start x argv n p e : size_parameter argv = Some n -> start (recorded ch) tb (inl (x, [])) argv = (p, inl e) ->
  connected p (str "back end") [] /\
  exists listing t, events p = answered (str "list_commands") [] listing ++ answered (str "boardsize") [n] t /\
    forall w, dget w (e_handlers e) <> None <->
      w = str "version" \/ w = str "boardsize" \/ In w own_commands \/
      (is_well_formed_gtp_word w = true /\ exists line, In line (split_on char_lf listing) /\ w = strip line).
Proof.
  intros SP St. destruct (start_proof x argv n p _ SP St) as [(l & listing & t & E & Il & (C & Ev))|(e' & E & _)]; [|discriminate].
  injection E as ->. split; [exact C|]. exists listing, t. split; [exact Ev|]. intros w. rewrite <- Il.
  unfold add_mogo_commands. cbn [add_command e_handlers]. rewrite !dget_dset.
  destruct (bytes_eqb_spec w (str "boardsize")) as [->|NB]; [split; [auto|discriminate]|].
  destruct (bytes_eqb_spec w (str "version")) as [->|NV]; [split; [auto|discriminate]|].
  split.
  - intros H. right. right. destruct (in_dec (list_eq_dec ascii_dec) w (dkeys (e_handlers (E0 l)))) as [I|I].
    + rewrite make_engine_keys in I. exact I.
    + apply dget_None in I. contradiction.
  - intros H. assert (In w (dkeys (e_handlers (E0 l)))) as I by (rewrite make_engine_keys; tauto).
    intros Z. apply dget_None in Z. contradiction.
Qed.

(** If it doesn't, that is because mogo couldn't be launched, of a low-level error, of a failure response to
    list_commands, or because mogo doesn't accept the board size. *)
Theorem C84_no_start launched argv n p e : size_parameter argv = Some n -> start (recorded ch) tb launched argv = (p, inr e) ->
  match launched with
  | inr text => e = Back_end_error (str "can't launch back end command" ++ char_lf :: text)
  | inl (x, []) =>
      match e with
      | Exit_message _ => False
      | Bad_response m => exists listing, events p = answered (str "list_commands") [] listing ++ failed (str "boardsize") [n] m
      | Back_end_error m => exists t, message_about (str "back end") m t /\
          (broke (events p) t \/ events p = failed (str "list_commands") [] t)
      | Unhandled _ => astray (events p)
      end
  | _ => True
  end.
Proof.
  intros SP St. destruct launched as [[x [|ev evs]]|text]; [|exact I|].
  - destruct (start_proof x argv n p _ SP St) as [(l & listing & t & E & _)|(e' & E & H)]; [discriminate|]. injection E as ->. exact H.
  - unfold start in St. rewrite SP in St. apply pair_equal_spec in St as [_ E]. injection E as <-. reflexivity.
Qed.

(** During a session the connection stays open. *)
Lemma quit_connected (p : PX) name aliases args p' r : connected p name aliases ->
  handle_quit (recorded ch) tb p args = (p', r) -> connected p' name aliases.
Proof.
  intros C. unfold handle_quit. destruct (pass_command (recorded ch) p (str "quit") []) as [p1 r1] eqn:P.
  pose proof (pass_connected _ _ _ _ _ _ _ C P) as C1.
  assert (U : connected (fst (expect_back_end_exit p1)) name aliases).
  { destruct C1 as (c & Pc & A). unfold expect_back_end_exit. rewrite Pc. exists (set_bad c). exact (conj eq_refl A). }
  destruct r1 as [t|m|m [[[]|]|]|k m|e]; intros H; apply pair_equal_spec in H as [<- _]; assumption.
Qed.
Lemma handle_connected (p : PX) name aliases command args p' r : connected p name aliases ->
  handle_command (recorded ch) tb p command args = (p', r) -> connected p' name aliases.
Proof.
  intros C. unfold handle_command. destruct (pass_command (recorded ch) p command args) as [p1 r1] eqn:P. intros H.
  assert (p1 = p') by congruence. subst. exact (pass_connected _ _ _ _ _ _ _ C P).
Qed.
Lemma run_connected n l (p : PX) name aliases command args p' reply : connected p name aliases ->
  run_command (ME n l) p command args = (p', reply) -> connected p' name aliases.
Proof.
  intros C R. unfold run_command in R. destruct (GtpModel.do_command (ME n l) p command args) as [p1 r1] eqn:D.
  assert (p1 = p') by congruence. subst p1. clear R. unfold GtpModel.do_command in D.
  destruct (bytes_eqb_spec command (str "boardsize")) as [->|NB].
  { rewrite mogo_boardsize in D. cbn [call_handler] in D. unfold handle_boardsize in D. assert (p = p') by congruence. subst. exact C. }
  destruct (bytes_eqb_spec command (str "version")) as [->|NV].
  { rewrite mogo_version in D. cbn [call_handler] in D. unfold handle_version in D. assert (p = p') by congruence. subst. exact C. }
  rewrite (customised_get _ _ _ command (mogo_customised n l)) in D by (cbn [In]; intuition congruence).
  rewrite make_engine_get in D.
  repeat match type of D with context [if bytes_eqb command ?k then _ else _] =>
    destruct (bytes_eqb_spec command k) as [->|?] end; cbn [call_handler] in D.
  - destruct (handle_passthrough (recorded ch) tb p args) as [p2 r2] eqn:G. assert (p2 = p') by congruence. subst p2.
    unfold handle_passthrough in G. destruct args as [|w rest]; [assert (p = p') by congruence; subst; exact C|].
    exact (handle_connected _ _ _ _ _ _ _ C G).
  - destruct (handle_quit (recorded ch) tb p args) as [p2 r2] eqn:G. assert (p2 = p') by congruence. subst p2.
    exact (quit_connected _ _ _ _ _ _ C G).
  - assert (p = p') by congruence. subst. exact C.
  - assert (p = p') by congruence. subst. exact C.
  - assert (p = p') by congruence. subst. exact C.
  - destruct (in_dec (list_eq_dec ascii_dec) command l); cbn [call_handler back_end_handler] in D.
    + destruct (handle_command (recorded ch) tb p command args) as [p2 r2] eqn:G. assert (p2 = p') by congruence. subst p2.
      exact (handle_connected _ _ _ _ _ _ _ C G).
    + assert (p = p') by congruence. subst. exact C.
Qed.
Lemma session_connected n l (p p' : PX) name aliases cmds : connected p name aliases -> session (ME n l) p cmds p' -> connected p' name aliases.
Proof. intros C S. induction S as [|cmds p1 command args p2 reply S IH R]; [exact C|]. exact (run_connected n l _ _ _ _ _ _ _ IH R). Qed.

(** At any time in a session: 'boardsize' accepts just the one size, 'version' is always the same, and mogo
    isn't told about either. *)
Theorem C84_own_answers x argv n p0 e cmds p args : size_parameter argv = Some n ->
  start (recorded ch) tb (inl (x, [])) argv = (p0, inl e) -> session e p0 cmds p ->
  run_command e p (str "version") args = (p, (false, str "2007 public release", false)) /\
  (args = [] -> run_command e p (str "boardsize") args = (p, (true, str "invalid arguments", false))) /\
  (forall a rest, args = a :: rest -> a = n -> run_command e p (str "boardsize") args = (p, (false, [], false))) /\
  (forall a rest, args = a :: rest -> a <> n ->
     run_command e p (str "boardsize") args = (p, (true, str "board size " ++ n ++ str " only please", false))).
Proof.
  intros SP St _. destruct (start_proof x argv n p0 _ SP St) as [(l & listing & t & E & _)|(e' & E & _)]; [|discriminate].
  injection E as ->. split; [|split; [|split]].
  - rewrite (run_user _ p _ args _ p _ (mogo_version n l) eq_refl). reflexivity.
  - intros ->. rewrite (run_user _ p _ [] _ p _ (mogo_boardsize n l) eq_refl). reflexivity.
  - intros a rest -> ->. rewrite (run_user _ p _ (n :: rest) _ p (GOk None) (mogo_boardsize n l)); [reflexivity|].
    unfold handle_boardsize. rewrite bytes_eqb_refl. reflexivity.
  - intros a rest -> N. rewrite (run_user _ p _ (a :: rest) _ p (GError (str "board size " ++ n ++ str " only please")) (mogo_boardsize n l)).
    + apply C84_command_line in SP. destruct SP as (q & [[_ ->]|[[_ ->]|[_ ->]]]); reflexivity.
    + unfold handle_boardsize. destruct (bytes_eqb_spec a n); [contradiction|]. reflexivity.
Qed.

(** Mogo's other commands are passed on as they are, and so is the answer. *)
Theorem C84_other_commands x argv n p0 e cmds p command args p' is_error text ended : size_parameter argv = Some n ->
  start (recorded ch) tb (inl (x, [])) argv = (p0, inl e) -> session e p0 cmds p ->
  dget command (e_handlers e) <> None -> ~ In command own_commands -> command <> str "version" -> command <> str "boardsize" ->
  run_command e p command args = (p', (is_error, text, ended)) ->
  exists evs, talked p p' evs /\ exchange command args evs /\ relayed (str "back end") false evs is_error text ended.
Proof.
  intros SP St Se Kn NO NV NB R. destruct (start_proof x argv n p0 _ SP St) as [(l & listing & t & E & Il & (C & Ev))|(e' & E & _)]; [|discriminate].
  injection E as ->. pose proof (session_connected n l _ _ _ _ _ C Se) as C'.
  assert (In command l) as I.
  { unfold add_mogo_commands in Kn. cbn [add_command e_handlers] in Kn. rewrite !dget_dset_other in Kn by assumption.
    destruct (in_dec (list_eq_dec ascii_dec) command l) as [I|I]; [exact I|]. exfalso. apply Kn. apply dget_None.
    intros Z. apply make_engine_keys in Z. tauto. }
  destruct (forward_proof ch tb l [str "boardsize"; str "version"] (ME n l) p p' (str "back end") [] command args is_error text ended
    (mogo_customised n l) C' I NO ltac:(cbn [In]; intuition congruence) R) as (evs & T & Ex & _ & Rl).
  rewrite mogo_fatal in Rl. exists evs. split; [exact T|]. split; [exact Ex|exact Rl].
Qed.
End Mogo.
Print Assumptions C84_not_launched.
Print Assumptions C84_start.
Print Assumptions C84_no_start.
Print Assumptions C84_own_answers.
Print Assumptions C84_other_commands.

(** ** Examples *)
(** A back end that answers "name" and "play", and accepts a board size. *)
Definition mx_engine : engine Z :=
  fold_left (fun e w => add_command e (str w) (User (fun s args => (s + 1, GOk (Some (str "mogo"))))))
    ["name"; "version"; "boardsize"; "play"]%string (add_protocol_commands new_engine).
Definition mx_start (argv : list bytes) : proxy (internal Z * list cevent) unit * (engine (proxy (internal Z * list cevent) unit) + ending) :=
  start (recorded (internal_channel mx_engine)) (fun _ => []) (inl (new_internal 0, [])) argv.
Example C84_example_started :
  match mx_start [str "--13"; str "--time"; str "5"] with
  | (p, inl e) =>
      snd (run_command e p (str "version") []) = (false, str "2007 public release", false) /\
      snd (run_command e p (str "boardsize") [str "19"]) = (true, str "board size 13 only please", false) /\
      snd (run_command e p (str "boardsize") [str "013"]) = (true, str "board size 13 only please", false) /\
      snd (run_command e p (str "boardsize") [str "13"]) = (false, [], false) /\
      snd (run_command e p (str "name") []) = (false, str "mogo", false)
  | _ => False
  end.
Proof. vm_compute. repeat split. Qed.
Example C84_example_refused : size_parameter [str "--11"] = None /\ size_parameter [] = None /\ size_parameter [str "--time"; str "--9"] = None.
Proof. repeat split. Qed.
