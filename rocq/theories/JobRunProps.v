(** Property theorems for running game jobs (C62: gomill/game_jobs.py Game_job.run). *)
From Coq Require Import QArith.
From Verif Require Import ControllerModel ControllerSpec ControllerProofs GtpGameModel GtpGameSpec GtpGameProps.
From Verif Require Import Base Bytes PyStr Dict BoardModel BoardSpec CommonModel SgfGrammarModel SgfGrammarSpec
  SgfPropsModel SgfPropsSpec SgfValueSpec SgfTreeModel SgfTreeSpec SgfMovesModel GameplayModel GameplaySpec GameplayProps
  EngineModel EngineSpec GameSgfModel GameSgfSpec GameSgfProofs GameSgfMainProofs JobSgfModel JobSgfSpec JobSgfProofs JobPlayedProofs
  JobRunModel JobRunSpec JobBodyProofs JobEndProofs JobFileProofs JobSgfProps.
Open Scope Z_scope.

(** The environment of an engine: its own variables override those of the process, and the game id
    and the number of the worker override both. *)
Theorem C62_environment :
  forall os j worker p key, (forall e, gp_environ p = Some e -> NoDup (map fst e)) ->
  dget key (job_environ os j worker p) = variable os p (gj_id j) worker key.
Proof. exact environ_proof. Qed.
Print Assumptions C62_environment.

(** Nothing else about the processes matters: what a job does depends only on what comes of
    starting each player's command, in the player's directory, in that environment. *)
Theorem C62_processes :
  forall (X : Type) (ch : colour -> channel X) sanitise pick os spawn spawn' usage error_text version today cpu_text now j worker w,
  (forall c e, gp_environ (job_player j c) = Some e -> NoDup (map fst e)) ->
  (forall c env, (forall key, dget key env = variable os (job_player j c) (gj_id j) worker key) ->
     spawn c (gp_cmd (job_player j c)) env (gp_cwd (job_player j c)) = spawn' c (gp_cmd (job_player j c)) env (gp_cwd (job_player j c))) ->
  run_job ch sanitise pick os spawn usage error_text version today cpu_text now j worker w =
  run_job ch sanitise pick os spawn' usage error_text version today cpu_text now j worker w.
Proof.
  intros X ch sanitise pick os spawn spawn' usage error_text version today cpu_text now j worker w N E.
  assert (S : forall c s, start_job_player ch sanitise os spawn j worker c s = start_job_player ch sanitise os spawn' j worker c s).
  { intros c s. unfold start_job_player, set_player_subprocess. cbv zeta. rewrite (E c); [reflexivity|]. intros key. apply C62_environment. apply N. }
  unfold run_job. destruct (new_gctl _ _) as [gc|e]; [|reflexivity].
  assert (B : job_body ch sanitise pick os spawn error_text j worker (job_game j gc) = job_body ch sanitise pick os spawn' error_text j worker (job_game j gc)).
  { unfold job_body. rewrite S. destruct (cgo (start_job_player ch sanitise os spawn' j worker Black (job_game j gc))) as [s1 [| |]]; try reflexivity.
    cbn [go_on]. rewrite S. reflexivity. }
  rewrite B. reflexivity.
Qed.
Print Assumptions C62_processes.

Section Statements.
Context {X : Type} (ch : colour -> channel X).
Variables (pick : nat -> nat) (os : dict bytes).
Variable spawn : colour -> list bytes -> dict bytes -> option bytes -> X + bytes.
Variable usage : colour -> X * list cevent -> option pfloat.
Variable error_text : gtp_game (X * list cevent) -> exn -> bytes.
Variables (version today : bytes) (cpu_text : pfloat -> bytes) (now : bytes).
Variable j : game_job.
Variable worker : option Z.
(** A job, with recording channels. *)
Definition the_job (sanitise : bytes -> bytes) : world -> world * option (running (X * list cevent)) * job_end :=
  run_job (fun c => recorded (ch c)) sanitise pick os (watched spawn) usage error_text version today cpu_text now j worker.

(** However the job ends, every engine was told just what the job says, in order, before the game;
    if that was cut short, nothing followed, except perhaps [quit]. *)
Theorem C62_opening :
  forall sanitise w w' s e, the_job sanitise w = (w', Some s, e) -> forall c k, g_get c (rn_gc s) = Some k -> spoken_to j c k.
Proof. intros sanitise. exact (spoken_proof ch pick os spawn usage error_text version today cpu_text now j worker sanitise). Qed.

(** When the job returns a response or JobFailed, every engine that was started has been closed,
    once.  An engine was not started only if its process could not be started, or if it is White's
    and there was trouble with Black's. *)
Theorem C62_engines_closed :
  forall sanitise w w' s e, (forall c v, gp_environ (job_player j c) = Some v -> NoDup (map fst v)) ->
  the_job sanitise w = (w', Some s, e) -> (forall x, e <> Crashed x) ->
  forall c, match g_get c (rn_gc s) with
            | Some k => reached (ch c) k /\ c_name k = player_called (gp_code (job_player j c)) /\ c_closed k = true /\ closed_once (trace k)
            | None => cannot_start spawn os j worker c \/
                (c = White /\ exists text late file, player_trouble j Black text /\ e = Failed (abort_message text late) file)
            end.
Proof.
  intros sanitise w w' s e N H NC c.
  destruct (closed_proof ch pick os spawn usage error_text version today cpu_text now j worker sanitise w w' s e H NC) as (A & B).
  destruct (g_get c (rn_gc s)) as [k|] eqn:G; [exact (A c k G)|].
  destruct (B c G) as [(text & Sp)|(-> & text & late & file & T & ->)].
  - left. eexists _, text. split; [|exact Sp]. intros key. apply C62_environment. apply N.
  - right. split; [reflexivity|]. exists text, late, file. split; [exact T|]. f_equal. unfold with_late, aborting, abort_message.
    destruct late as [|a l]; [reflexivity|]. cbn [app lines]. rewrite <- !app_assoc. reflexivity.
Qed.

(** A response: the players' codes are different; the game was set up as the job says and played to
    the end; the response has the id, the game's result with the CPU times filled in, a warning if
    the game was forfeited, the errors in closing the engines, and what the engines said about
    themselves. *)
Theorem C62_response :
  forall sanitise w w' so r file, the_job sanitise w = (w', so, Finished r file) ->
  gp_code (gj_b j) <> gp_code (gj_w j) /\
  exists s g0 g1 stones kb kw en_b en_w, so = Some s /\
    set_up_for ch j g0 stones /\
    run_gtp_game (fun c => recorded (ch c)) sanitise pick None (Z.to_nat (Z.max 1 (gj_limit j))) g0 = (g1, Ok tt) /\
    g_get Black (rn_gc s) = Some kb /\ g_get White (rn_gc s) = Some kw /\
    rp_id r = gj_id j /\
    timed usage g1 (fun c => c_chan (match c with Black => kb | White => kw end)) (rp_result r) /\
    gr_id (rp_result r) = Some (gj_id j) /\ gr_player_b (rp_result r) = gp_code (gj_b j) /\ gr_player_w (rp_result r) = gp_code (gj_w j) /\
    warnings_of (rp_result r) (rp_warnings r) /\
    rp_log r = match late_errors (rn_gc s) with [] => [] | l => [lines l] end /\
    introduced sanitise (trace kb) en_b /\ introduced sanitise (trace kw) en_w /\
    (forall code, dget code (rp_engines r) =
       if bytes_eqb code (gp_code (gj_b j)) then Some (Some en_b) else if bytes_eqb code (gp_code (gj_w j)) then Some (Some en_w) else None).
Proof.
  intros sanitise w w' so r file H.
  destruct (finished_proof62 ch sanitise pick os spawn usage error_text version today cpu_text now j worker _ _ _ _ _ H)
    as (NE & s & g0 & g1 & stones & kb & kw & en_b & en_w & Es & SU & Run & Gb & Gw & Er & Ers & Ew & Ei & Eid & Cb & Cw & A1 & A2 & A3 & A4 & A5 & A6 & La & A7 & Ib & Iw & Eb & Ewe & A8 & Rec).
  split; [exact NE|]. exists s, g0, g1, stones, kb, kw, en_b, en_w. repeat (split; [assumption|]).
  intros code. rewrite A8. rewrite !dget_dset. cbn [dget].
  destruct (bytes_eqb_spec code (gp_code (gj_w j))) as [P|P], (bytes_eqb_spec code (gp_code (gj_b j))) as [Q|Q]; try reflexivity. congruence.
Qed.

(** The moves of the game in a response are a legal game from the job's starting position, and the
    result is the one that the game came to. *)
Theorem C62_result :
  forall more w w' s r file, 2 <= gj_size j <= 25 -> the_job (sanitise_utf8 more) w = (w', Some s, Finished r file) ->
  exists (kb kw : controller (X * list cevent)) stones pos res,
    stones_from j kb kw stones /\ starting_position (gj_size j) stones pos /\
    record_is_legal (gj_size j) (Some (gj_limit j)) pos (first_player stones) (ru_moves (ga_runner (rn_game s))) /\
    ru_result (ga_runner (rn_game s)) = Some res /\
    names_result (gp_code (gj_b j)) (gp_code (gj_w j)) (Some (gj_id j)) res (rp_result r).
Proof.
  intros more w w' s r file S25 H.
  destruct (finished_proof62 ch (sanitise_utf8 more) pick os spawn usage error_text version today cpu_text now j worker _ _ _ _ _ H)
    as (NE & s' & g0 & g1 & stones & kb & kw & en_b & en_w & Es & SU & Run & Gb & Gw & Er & Ers & Ew & Ei & Eid & Cb & Cw & A1 & A2 & A3 & A4 & A5 & A6 & La & A7 & Ib & Iw & Eb & Ewe & A8 & Rec).
  assert (s' = s) as -> by congruence.
  destruct (su_engaged _ _ _ _ SU) as (Ca & En). destruct (En Black) as (kb0 & Gb0 & _). destruct (En White) as (kw0 & Gw0 & _).
  pose proof (set_up_stones ch j g0 stones SU) as OB.
  destruct (run (logged (gtp_backend (fun c => recorded (ch c)) (sanitise_utf8 more) pick None)) (Z.to_nat (Z.max 1 (gj_limit j))) pick (ga_runner g0) (ga_backend g0, [])) as [[r1 [s1 log]] o] eqn:Rl.
  pose proof (C48_run X ch (sanitise_utf8 more) pick None ltac:(intros f Q; discriminate Q) _ _ _ _ (gj_size j) (Some (gj_limit j)) stones r1 s1 log o
    (su_engaged _ _ _ _ SU) S25 (su_ready _ _ _ _ SU) OB Rl Run) as C48. cbv iota in C48.
  destruct C48 as (-> & E1 & _ & res & gr & eb & ew & Rs & Gr & NM & _).
  destruct (C32_record_replays _ _ _ _ _ _ _ _ _ _ (gj_size j) (Some (gj_limit j)) stones S25 (su_ready _ _ _ _ SU) OB Rl) as (pos & SP & RL).
  exists kb0, kw0, stones, pos, res. split; [exact (su_stones _ _ _ _ SU kb0 kw0 Gb0 Gw0)|]. split; [exact SP|]. rewrite Er, E1. split; [exact RL|]. split; [exact Rs|].
  destruct A2 as (gr0 & eb' & ew' & Eg & _ & Egr). cbv zeta in Egr. assert (gr0 = gr) as -> by congruence.
  destruct (su_ordered _ _ _ _ SU) as [_ _ _ _ _ _ (Cb0 & Cw0)]. rewrite Cb0, Cw0, (su_id _ _ _ _ SU) in NM. rewrite Egr. exact NM.
Qed.

(** JobFailed: the players have the same code; or the game was aborted, for a reason that the
    message gives, with the errors in closing the engines.  If there were any moves, it was the game
    that was broken off, set up as the job says, by a failing engine. *)
Theorem C62_failed :
  forall sanitise w w' so msg file, the_job sanitise w = (w', so, Failed msg file) ->
  (gp_code (gj_b j) = gp_code (gj_w j) /\ so = None /\ w' = w /\ file = None /\
     msg = str "error creating game: player codes must be distinct") \/
  (gp_code (gj_b j) <> gp_code (gj_w j) /\
   exists s text, so = Some s /\ abort_reason j error_text text /\ msg = abort_message text (late_errors (rn_gc s)) /\
     (ru_moves (ga_runner (rn_game s)) = [] \/
      exists g0 g1 stones e, set_up_for ch j g0 stones /\ (e = bad_gtp \/ e = channel_error) /\ text = error_text g1 e /\
        run_gtp_game (fun c => recorded (ch c)) sanitise pick None (Z.to_nat (Z.max 1 (gj_limit j))) g0 = (g1, Err e) /\
        ru_moves (ga_runner (rn_game s)) = ru_moves (ga_runner g1)) /\
     (ru_moves (ga_runner (rn_game s)) = [] \/ gj_void_dirname j = None \/ gj_filename j = None -> w' = w /\ file = None)).
Proof.
  intros sanitise w w' so msg file H.
  destruct (failed_proof62 ch pick os spawn usage error_text version today cpu_text now j worker sanitise _ _ _ _ _ H)
    as [A|(NE & s & text & Es & Rs & Em & La & Rec & Cb & Cw & B)]; [left; exact A|right].
  split; [exact NE|]. exists s, text. split; [exact Es|]. split; [exact Rs|]. split.
  { rewrite Em. unfold with_late, aborting, abort_message.
    destruct (late_errors (rn_gc s)) as [|a l]; [reflexivity|]. cbn [app lines]. rewrite <- !app_assoc. reflexivity. }
  split.
  - destruct B as [B|(g0 & g1 & stones & e & en_b & en_w & SU & Run & Ee & Et & SR & _)]; [left; exact B|right].
    exists g0, g1, stones, e. repeat (split; [assumption|]). rewrite (sr_runner _ _ SR). reflexivity.
  - intros No. unfold job_record_void in Rec. destruct (both_engines s) as [en|].
    + pose proof (proj1 (C61_void_file _ version today en cpu_text now j (rn_game s) (aborting text) w) No) as V.
      rewrite V in Rec. assert (w' = w /\ file = None) by (split; congruence). assumption.
    + destruct (ru_moves (ga_runner (rn_game s))) as [|m l]; [split; congruence|]. destruct No as [Q|[Q|Q]]; [discriminate Q| |]; rewrite Q in Rec; [split; congruence|].
      destruct (gj_void_dirname j); split; congruence.
Qed.

(** The file of a finished game, whatever the engines did: whoever loads it sees the game of the
    response. *)
Theorem C62_finished_file :
  forall more w w0 w' s r f dir file,
  2 <= gj_size j <= 25 -> komi_ok (gj_komi j) ->
  all_utf8 [version; today; now; gj_id j; gp_code (gj_b j); gp_code (gj_w j)] ->
  maybe_utf8 (gj_name j) /\ maybe_utf8 (gj_event j) /\ maybe_utf8 (gj_note j) -> (forall x, is_utf8 (cpu_text x)) ->
  the_job (sanitise_utf8 more) w = (w', Some s, Finished r f) ->
  gj_dirname j = Some dir -> gj_filename j = Some file ->
  all_utf8 (raw_texts (rn_game s)) -> all_utf8 (late_errors (rn_gc s)) -> reachable_world w -> reachable_world w0 ->
  exists text w1 sg nodes engines stones,
    f = Some (os_join dir file, text) /\ load_string w0 text UTF_8 false = (w1, Ok tt) /\
    (rn_b s = Some (engines Black) /\ rn_w s = Some (engines White)) /\
    displays (job_document version today engines cpu_text now j (rn_game s) None) w1 (List.length (w_games w0)) sg nodes /\
    get_winner w1 sg = Ok (r_winner (gr_base (rp_result r))) /\
    (exists kb kw : controller (X * list cevent), stones_from j kb kw stones) /\
    (Z.of_nat (List.length (stones_list stones)) < gj_size j * gj_size j ->
     exists b pos, get_setup_and_moves pick w1 sg None = (Some b, Ok (moves_only (ru_moves (ga_runner (rn_game s))))) /\
       starting_position (gj_size j) stones pos /\ same_on (gj_size j) (view b) pos /\
       record_is_legal (gj_size j) (Some (gj_limit j)) pos (first_player stones) (ru_moves (ga_runner (rn_game s)))).
Proof.
  intros more w w0 w' s r f dir file S25 KO TX TN TC.
  exact (finished_file_proof ch pick os spawn usage error_text version today cpu_text now j worker more S25 KO TX TN TC w w0 w' s r f dir file).
Qed.

(** The file of a game that was broken off. *)
Theorem C62_void_file :
  forall more w w0 w' s msg f dir file,
  2 <= gj_size j <= 25 -> komi_ok (gj_komi j) ->
  all_utf8 [version; today; now; gj_id j; gp_code (gj_b j); gp_code (gj_w j)] ->
  maybe_utf8 (gj_name j) /\ maybe_utf8 (gj_event j) /\ maybe_utf8 (gj_note j) -> (forall x, is_utf8 (cpu_text x)) ->
  the_job (sanitise_utf8 more) w = (w', Some s, Failed msg f) ->
  gj_void_dirname j = Some dir -> gj_filename j = Some file -> ru_moves (ga_runner (rn_game s)) <> [] ->
  is_utf8 msg -> all_utf8 (raw_texts (rn_game s)) -> all_utf8 (late_errors (rn_gc s)) -> reachable_world w -> reachable_world w0 ->
  exists text w1 sg nodes engines stones reason,
    f = Some (os_join dir file, text) /\ load_string w0 text UTF_8 false = (w1, Ok tt) /\
    (rn_b s = Some (engines Black) /\ rn_w s = Some (engines White)) /\
    msg = abort_message reason (late_errors (rn_gc s)) /\
    displays (void_document version today engines cpu_text now j (rn_game s) (abort_message reason [])) w1 (List.length (w_games w0)) sg nodes /\
    get_winner w1 sg = Ok None /\
    (exists kb kw : controller (X * list cevent), stones_from j kb kw stones) /\
    (Z.of_nat (List.length (stones_list stones)) < gj_size j * gj_size j ->
     exists b pos, get_setup_and_moves pick w1 sg None = (Some b, Ok (moves_only (ru_moves (ga_runner (rn_game s))))) /\
       starting_position (gj_size j) stones pos /\ same_on (gj_size j) (view b) pos /\
       record_is_legal (gj_size j) (Some (gj_limit j)) pos (first_player stones) (ru_moves (ga_runner (rn_game s)))).
Proof.
  intros more w w0 w' s msg f dir file S25 KO TX TN TC H.
  exact (void_file_proof62 ch pick os spawn usage error_text version today cpu_text now j worker more S25 KO TX TN TC w w0 w' s msg f dir file H).
Qed.
End Statements.
Print Assumptions C62_opening.
Print Assumptions C62_engines_closed.
Print Assumptions C62_response.
Print Assumptions C62_result.
Print Assumptions C62_failed.
Print Assumptions C62_finished_file.
Print Assumptions C62_void_file.

(** ** Examples *)

Open Scope string_scope.
Definition polite : list (string * (bool * string)) :=
  [("protocol_version", (false, "2")); ("name", (false, "GNU Go")); ("version", (false, "3.8")); ("known_command", (false, "true"));
   ("gomill-describe_engine", (false, "plays well")); ("boardsize", (false, "")); ("clear_board", (false, "")); ("komi", (false, ""));
   ("set_random_seed", (false, "")); ("gomill-genmove_ex", (false, "pass")); ("genmove", (false, "pass")); ("play", (false, ""));
   ("final_score", (false, "b+1.0")); ("gomill-cpu_time", (false, "12.5")); ("gomill-explain_last_move", (false, "nothing to do"));
   ("place_free_handicap", (false, "C3 E5")); ("set_free_handicap", (false, "")); ("quit", (false, ""))].
Definition seeded (code : string) : gplayer :=
  mkPlayer (str code) true false [(str "set_random_seed", str "seed")] [(str "set_random_seed", [str "1"])] false [str "gnugo"; str "--mode=gtp"]
    (Some [(str "HOME", str "/tmp"); (str "GOMILL_SLOT", str "x")]) (Some (str "/home")).
Definition run_demo_job (handicap : option Z) (ch : colour -> channel (bytes * nat)) (spawn : colour -> (bytes * nat) + bytes) :=
  the_job ch (fun _ => O) [(str "PATH", str "/bin"); (str "HOME", str "/root")] (fun c _ _ _ => spawn c) (fun _ _ => None)
    (fun _ _ => str "the engine has gone") (str "0.8") (str "2012-01-02") (fun _ => str "12.50") (str "2012-01-02 03:04")
    (mkGameJob (str "g1") (seeded "one") (demo_player "two" false) 9 (75, 1%nat) (str "7.5") 1000 handicap true false CompNo
       (Some (str "g1.sgf")) (Some (str "/games")) (Some (str "/void")) None None None)
    (Some 3) (sanitise_utf8 (fun _ => O)) (mkW [] []).
Definition outcome_of (x : world * option (running ((bytes * nat) * list cevent)) * job_end) := snd x.
Definition said_of (c : colour) (x : world * option (running ((bytes * nat) * list cevent)) * job_end) : list command :=
  match snd (fst x) with
  | Some s => match g_get c (rn_gc s) with Some k => sent (trace k) | None => [] end
  | None => []
  end.
Definition both_start (c : colour) : (bytes * nat) + bytes := inl ([], O).

Example C62_demo_environment :
  map (fun k => option_map (fun x => x) (dget (str k) (job_environ [(str "PATH", str "/bin"); (str "HOME", str "/root")] demo_job (Some 3) (seeded "one"))))
    ["PATH"; "HOME"; "GOMILL_GAME_ID"; "GOMILL_SLOT"] =
  [Some (str "/bin"); Some (str "/tmp"); Some (str "g1"); Some (str "3")].
Proof. vm_compute. reflexivity. Qed.

(** A whole job: what Black's engine is told (aliases apply to the startup commands, not to the
    greeting), and the response. *)
Definition good_demo := run_demo_job (Some 2) (two_engines (("seed", (false, "")) :: polite) polite) both_start.
Example C62_demo_response :
  match outcome_of good_demo with
  | Finished r (Some (path, text)) =>
      path = str "/games/g1.sgf" /\ rp_id r = str "g1" /\ rp_warnings r = [] /\ rp_log r = [] /\
      gr_winner (rp_result r) = Some (str "one") /\ gr_cpu_b (rp_result r) = Some (FNum (125, 1%nat)) /\
      map fst (rp_engines r) = [str "one"; str "two"]
  | _ => False
  end.
Proof. vm_compute. repeat split; reflexivity. Qed.
Example C62_demo_opening :
  firstn 10 (said_of Black good_demo) =
  [(str "protocol_version", []); (str "name", []); (str "version", []); (str "known_command", [str "gomill-describe_engine"]);
   (str "gomill-describe_engine", []); (str "seed", [str "1"]); (str "boardsize", [str "9"]); (str "clear_board", []); (str "komi", [str "7.5"]);
   (str "place_free_handicap", [str "2"])] /\
  nth 8 (said_of White good_demo) (str "", []) = (str "set_free_handicap", [str "C3"; str "E5"]) /\
  last (said_of White good_demo) (str "", []) = (str "quit", []).
Proof. vm_compute. repeat split; reflexivity. Qed.

(** Black speaks another version of the protocol: White's engine is not started. *)
Example C62_demo_version :
  let x := run_demo_job None (two_engines [("protocol_version", (false, "1")); ("quit", (false, ""))] polite) both_start in
  outcome_of x = Failed (demo_texts ["aborting game due to error:"; "player one reports GTP protocol version 1"]) None /\
  said_of Black x = [(str "protocol_version", []); (str "quit", [])] /\
  option_map (fun s => match g_get White (rn_gc s) with None => true | Some _ => false end) (snd (fst x)) = Some true.
Proof. vm_compute. repeat split; reflexivity. Qed.

(** White's process can't be started: Black's engine is closed. *)
Example C62_demo_spawn :
  let x := run_demo_job None (two_engines (("seed", (false, "")) :: polite) polite) (fun c => match c with Black => inl ([], O) | White => inr (str "no such file") end) in
  outcome_of x = Failed (demo_texts ["aborting game due to error:"; "error starting subprocess for player two:"; "no such file"]) None /\
  last (said_of Black x) (str "", []) = (str "quit", []).
Proof. vm_compute. repeat split; reflexivity. Qed.

(** An engine that goes away while the game is played: the game is void, and its moves are kept. *)
Definition void_demo :=
  run_demo_job None (fun c => match c with Black => tabled (("seed", (false, "")) :: polite) | White => mortal polite "genmove" end) both_start.
Example C62_demo_void :
  match outcome_of void_demo with
  | Failed msg (Some (path, text)) =>
      msg = demo_texts ["aborting game due to error:"; "the engine has gone"] /\ path = str "/void/g1.sgf" /\
      text = demo_texts ["(;FF[4]AP[gomill:0.8]"; "C[Game id g1"; "Date 2012-01-02 03:04"; "Black one plays well"; "White two plays well]";
        "CA[UTF-8]DT[2012-01-02]GM[1]GN[g1]KM[7.5]PB[one]PW[two]RE[Void]SZ[9];B[tt]"; "C[nothing to do"; ""; "aborting game due to error:";
        "the engine has gone])"; ""]
  | _ => False
  end.
Proof. vm_compute. repeat split; reflexivity. Qed.

(** FINDING.  If an engine answers [version] with more than 64 blanks, IndexError comes out of the
    job, and Black's engine is left running: it is never told to quit, nor closed. *)
Definition blanks : string := string_of_list_ascii (repeat " "%char 65).
Definition blank_demo :=
  run_demo_job None (two_engines [("protocol_version", (false, "2")); ("version", (false, blanks)); ("name", (false, "x")); ("quit", (false, ""))] polite) both_start.
Example C62_finding_engine_left_running :
  outcome_of blank_demo = Crashed IndexError /\
  option_map (fun s => option_map (fun k => (c_closed k, existsb is_close (trace k))) (g_get Black (rn_gc s))) (snd (fst blank_demo)) = Some (Some (false, false)).
Proof. vm_compute. repeat split; reflexivity. Qed.
