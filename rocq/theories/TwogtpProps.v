(** Property theorems for a run of twogtp (C80: gomill_examples/twogtp). *)
From Coq Require Import QArith.
From Verif Require Import ControllerModel ControllerSpec ControllerProofs GtpGameModel GtpGameSpec GtpGameProps.
From Verif Require Import Base Bytes PyStr Dict BoardModel BoardSpec CommonModel SgfGrammarModel SgfGrammarSpec
  SgfPropsModel SgfPropsSpec SgfValueSpec SgfTreeModel SgfTreeSpec SgfMovesModel GameplayModel GameplaySpec GameplayProps
  EngineModel EngineSpec GameSgfModel GameSgfSpec GameSgfProofs GameSgfMainProofs JobSgfModel JobSgfSpec JobSgfProofs JobSgfMainProofs JobPlayedProofs JobReadProofs
  JobRunModel JobRunSpec JobBodyProofs JobEndProofs JobFileProofs JobSgfProps JobRunProps TwogtpModel TwogtpSpec TwogtpProofs TwogtpFileProofs TwogtpRunProofs.
Open Scope Z_scope.

(** A whole run: usage errors, commands that can't be split, players that can't be set up (the engines
    that were started are closed); or games, one line for each, one file for each if asked for, and
    then the engines are closed; or the run breaks off.  Any [ch], [spawn], [write] and [shlex]. *)
Theorem C80_run :
  forall (X : Type) (ch : colour -> channel X) sanitise pick spawn error_text version today shlex write o args w t e,
  tw_main (fun c => recorded (ch c)) sanitise pick (tw_watched spawn) error_text version today shlex write o args w = (t, e) ->
  match t with
  | None =>
      (args <> [] /\ e = TwUsage (str "too many arguments")) \/
      (args = [] /\ ((forall b, ~ tw_given (tw_black o) b) \/ (forall b, ~ tw_given (tw_white o) b)) /\ e = TwUsage (str "players not specified")) \/
      (args = [] /\ exists b wh, tw_given (tw_black o) b /\ tw_given (tw_white o) wh /\
         ((exists text, (shlex b = inr text \/ shlex wh = inr text) /\ e = TwRaised ValueError) \/
          ((shlex b = inl [] \/ shlex wh = inl []) /\ e = TwRaised IndexError)))
  | Some t =>
      args = [] /\ exists b wh cb argb cw argw, tw_given (tw_black o) b /\ tw_given (tw_white o) wh /\
        shlex b = inl (cb :: argb) /\ shlex wh = inl (cw :: argw) /\
        tw_outcome ch sanitise pick o version today write error_text (tw_code cb cw)
          (fun c => exists x, spawn c (match c with Black => cb :: argb | White => cw :: argw end) = inl x) w t e
  end.
Proof. intros X ch sanitise pick spawn error_text version today shlex write o args w t e. apply main_proof. Qed.
Print Assumptions C80_run.

(** The players can be told apart. *)
Theorem C80_codes : forall b w, tw_code b w Black <> tw_code b w White.
Proof. exact code_distinct. Qed.
Print Assumptions C80_codes.

(** Each game played is legal, from the empty board, and has the result that is printed. *)
Theorem C80_games :
  forall (X : Type) (ch : colour -> channel X) sanitise pick o code g games gm,
  2 <= tw_size o <= 25 -> tw_played ch sanitise pick o code g games gm ->
  Forall (fun g1 => exists pos res gr, starting_position (tw_size o) None pos /\
    record_is_legal (tw_size o) (Some 1000) pos Black (ru_moves (ga_runner g1)) /\
    ru_result (ga_runner g1) = Some res /\ ga_result g1 = Some gr /\
    names_result (code Black) (code White) None res gr) games.
Proof.
  intros X ch sanitise pick o code g games gm S25 H. induction H as [g|g g0 g1 gr l g2 SU Run Gr0 Pl IH]; constructor; [|exact IH]. clear IH Pl.
  destruct (run (logged (gtp_backend (fun c => recorded (ch c)) sanitise pick None)) (Z.to_nat 1000) pick (ga_runner g0) (ga_backend g0, [])) as [[r1 [s1 log]] oo] eqn:Rl.
  assert (OB : forall p, In p (stones_list None) -> on_board (tw_size o) p) by (intros p []).
  pose proof (C48_run X ch sanitise pick None ltac:(intros f Q; discriminate Q) _ _ _ _ (tw_size o) (Some 1000) None r1 s1 log oo
    (tb_engaged _ _ _ _ _ SU) S25 (tb_ready _ _ _ _ _ SU) OB Rl Run) as C48. cbv iota in C48.
  destruct C48 as (-> & E1 & _ & res & gr' & eb & ew & Rs & Gr & NM & _). assert (gr' = gr) as -> by congruence.
  destruct (C32_record_replays _ _ _ _ _ _ _ _ _ _ (tw_size o) (Some 1000) None S25 (tb_ready _ _ _ _ _ SU) OB Rl) as (pos & SP & RL).
  exists pos, res, gr. split; [exact SP|]. rewrite E1. split; [exact RL|]. split; [exact Rs|]. split; [exact Gr0|].
  pose proof (tb_codes _ _ _ _ _ SU Black) as CB. pose proof (tb_codes _ _ _ _ _ SU White) as CW. cbn [g_code] in CB, CW.
  destruct (tb_unplayed _ _ _ _ _ SU) as (_ & Id & _). rewrite CB, CW, Id in NM. exact NM.
Qed.
Print Assumptions C80_games.

(** If the texts that come unchanged from the engines are UTF-8, all the games can be recorded; and
    reading the file of a game gives its winner and its moves. *)
Theorem C80_records :
  forall (X : Type) (ch : colour -> channel X) more pick o code g games gm version today engines w,
  2 <= tw_size o <= 25 -> komi_ok (tw_komi o) -> tw_played ch (sanitise_utf8 more) pick o code g games gm ->
  (forall c, exists n v d, new_engine (sanitise_utf8 more) n v d = Ok (engines c)) ->
  all_utf8 [version; today; code Black; code White] -> Forall (fun g1 => all_utf8 (raw_texts g1)) games -> reachable_world w ->
  tw_recordable version today engines w games /\
  Forall (fun g1 => forall text w0, tw_shows version today engines g1 text -> reachable_world w0 ->
    exists w1 sg b pos, load_string w0 text UTF_8 false = (w1, Ok tt) /\ game_at w1 (List.length (w_games w0)) = Some sg /\ get_winner w1 sg = Ok (winner_of (ga_runner g1)) /\
      get_setup_and_moves pick w1 sg None = (Some b, Ok (moves_only (ru_moves (ga_runner g1)))) /\
      starting_position (tw_size o) None pos /\ same_on (tw_size o) (view b) pos /\
      record_is_legal (tw_size o) (Some 1000) pos Black (ru_moves (ga_runner g1))) games.
Proof.
  intros X ch more pick o code g games gm version today engines w S25 KO H EN TX RW RC.
  cut (Forall (fun g1 => gtp_recordable version today engines g1 /\
    forall text w0, tw_shows version today engines g1 text -> reachable_world w0 ->
    exists w1 sg b pos, load_string w0 text UTF_8 false = (w1, Ok tt) /\ game_at w1 (List.length (w_games w0)) = Some sg /\ get_winner w1 sg = Ok (winner_of (ga_runner g1)) /\
      get_setup_and_moves pick w1 sg None = (Some b, Ok (moves_only (ru_moves (ga_runner g1)))) /\
      starting_position (tw_size o) None pos /\ same_on (tw_size o) (view b) pos /\
      record_is_legal (tw_size o) (Some 1000) pos Black (ru_moves (ga_runner g1))) games).
  { intros F. apply Forall_and_inv in F. destruct F as (F1 & F2). split; [split; assumption|assumption]. }
  induction H as [g|g g0 g1 gr l g2 SU Run Gr0 Pl IH]; constructor; inversion RW as [|? ? R1 R2]; subst; [|apply IH; exact R2]. clear IH Pl.
  assert (OB : forall p, In p (stones_list None) -> on_board (tw_size o) p) by (intros p []).
  assert (FP : Z.of_nat (List.length (stones_list None)) < tw_size o * tw_size o) by (cbn; nia).
  assert (KO' : komi_ok (ru_komi (ga_runner g0))) by (rewrite (tb_komi _ _ _ _ _ SU); exact KO).
  destruct (tb_unplayed _ _ _ _ _ SU) as (NR & Id & _).
  pose proof (tb_codes _ _ _ _ _ SU Black) as CB. pose proof (tb_codes _ _ _ _ _ SU White) as CW. cbn [g_code] in CB, CW.
  assert (TX' : all_utf8 [version; today; g_code_b (gb_gc (ga_backend g0)); g_code_w (gb_gc (ga_backend g0))]) by (rewrite CB, CW; exact TX).
  assert (ID : maybe_utf8 (ga_id g0)) by (rewrite Id; intros s Q; discriminate Q).
  split.
  - exact (played_gtp_recordable _ more pick _ g0 g1 _ (tw_size o) (Some 1000) None S25 (tb_ready _ _ _ _ _ SU) OB KO' NR Run version today engines EN TX' ID R1).
  - intros text w0 Sh R0. destruct (Sh w0 R0) as (w1 & sg & nodes & Ld & Sz & Rw1 & Pr & D).
    destruct (gtp_props version today engines g1) as (A & _ & _ & B).
    assert (K : forall k, k <> str "PB" -> k <> str "PW" -> k <> str "GN" -> k <> str "AP" ->
      dget k (ct_props (fst (tw_document version today engines g1))) = dget k (ct_props (the_root version today (ga_runner g1)))).
    { intros k N1 N2 N3 N4. unfold tw_document. cbn [on_root fst]. rewrite dget_put. destruct (bytes_eqb_spec k (str "AP")) as [|_]; [contradiction|]. apply A; assumption. }
    destruct (played_read_proof _ more pick _ g0 g1 _ (tw_size o) (Some 1000) None S25 (tb_ready _ _ _ _ _ SU) OB FP NR Run version today (tw_document version today engines g1) w1 _ sg nodes Rw1 D Pr Sz)
      as ((b & pos & G & SP & SO & RL) & Wn).
    + eapply plays_from; [|exact B]. intros k I. apply K; cbn in I; intuition; subst; discriminate.
    + exists w1, sg, b, pos. split; [exact Ld|]. split; [exact (proj1 D)|]. split; [apply Wn; apply K; discriminate|]. auto.
Qed.
Print Assumptions C80_records.

(** ** Examples *)

Open Scope string_scope.
Definition words (s : bytes) : list bytes + bytes := inl (filter (fun x => negb (bytes_eqb x [])) (split_on char_sp s)).
Definition tw_demo_options (black white : string) (games : Z) (base : option string) : tw_options :=
  mkTwOptions (Some (str black)) (Some (str white)) (75, 1%nat) (str "7.5") 9 games (option_map str base).
Definition tw_demo (o : tw_options) (ch : colour -> channel (bytes * nat)) (spawn : colour -> (bytes * nat) + bytes) (write : bytes -> bytes -> option bytes) :=
  tw_main (fun c => recorded (ch c)) (sanitise_utf8 (fun _ => O)) (fun _ => O) (tw_watched (fun c _ => spawn c)) (fun _ _ => str "the engine has gone")
    (str "0.8") (str "2012-01-02") words write o [] (mkW [] []).
Definition tw_said (c : colour) (x : option (tw_state ((bytes * nat) * list cevent)) * tw_end) : list command :=
  match fst x with
  | Some t => match g_get c (rn_gc (tw_run t)) with Some k => sent (trace k) | None => [] end
  | None => []
  end.
Definition tw_written (x : option (tw_state ((bytes * nat) * list cevent)) * tw_end) :=
  match fst x with Some t => (tw_out t, tw_files t) | None => ([], []) end.
Definition tw_closed (x : option (tw_state ((bytes * nat) * list cevent)) * tw_end) : list (option bool) :=
  match fst x with
  | Some t => map (fun c => option_map (fun k => existsb is_close (trace k)) (g_get c (rn_gc (tw_run t)))) [Black; White]
  | None => []
  end.

(** Two games, with the same program on both sides. *)
Definition tw_two := tw_demo (tw_demo_options "gnugo --mode=gtp" "gnugo" 2 (Some "g")) (two_engines polite polite) both_start (fun _ _ => None).
Example C80_demo_two :
  snd tw_two = TwDone /\
  fst (tw_written tw_two) = [str "gnugo-b beat gnugo-w B+1"; str "gnugo-b beat gnugo-w B+1"] /\
  map fst (snd (tw_written tw_two)) = [str "g000.sgf"; str "g001.sgf"] /\
  tw_closed tw_two = [Some true; Some true] /\
  map fst (tw_said White tw_two) = map str
    ["protocol_version"; "name"; "version"; "known_command"; "gomill-describe_engine";
     "boardsize"; "clear_board"; "komi"; "play"; "genmove"; "known_command"; "gomill-explain_last_move";
     "known_command"; "final_score"; "known_command"; "gomill-cpu_time";
     "boardsize"; "clear_board"; "komi"; "play"; "genmove"; "gomill-explain_last_move"; "final_score"; "gomill-cpu_time"; "quit"].
Proof. vm_compute. repeat split; reflexivity. Qed.
Example C80_demo_file :
  map snd (firstn 1 (snd (tw_written tw_two))) =
  [demo_texts ["(;FF[4]AP[Gomill twogtp:0.8]CA[UTF-8]DT[2012-01-02]GM[1]KM[7.5]PB[GNU Go:3.8]"; "PW[GNU Go:3.8]RE[B+1]SZ[9];B[tt]C[nothing to do];"; "C[nothing to do"; ""; "gnugo-b beat gnugo-w B+1]W[tt])"; ""]].
Proof. vm_compute. reflexivity. Qed.

(** White's engine goes away: the run is broken off, and both engines are closed. *)
Example C80_demo_abort :
  let x := tw_demo (tw_demo_options "one" "two" 5 None) (fun c => match c with Black => tabled polite | White => mortal polite "genmove" end) both_start (fun _ _ => None) in
  snd x = TwExit (demo_texts ["aborting run due to error:"; "the engine has gone"; ""]) /\ tw_closed x = [Some true; Some true].
Proof. vm_compute. repeat split; reflexivity. Qed.

(** White's process can't be started. *)
Example C80_demo_spawn :
  let x := tw_demo (tw_demo_options "one" "two" 5 None) (two_engines polite polite)
     (fun c => match c with Black => inl ([], O) | White => inr (str "no such file") end) (fun _ _ => None) in
  snd x = TwExit (demo_texts ["error creating players:"; "error starting subprocess for player two:"; "no such file"; ""]) /\
  tw_closed x = [Some true; None].
Proof. vm_compute. repeat split; reflexivity. Qed.

(** FINDING.  If an engine says that it speaks another version of the protocol, BadGtpResponse comes
    out of the script (only GtpChannelError is caught), and the engines are left running. *)
Example C80_finding_version :
  let x := tw_demo (tw_demo_options "one" "two" 5 None) (two_engines polite [("protocol_version", (false, "1")); ("quit", (false, ""))]) both_start (fun _ _ => None) in
  snd x = TwRaised bad_gtp /\ tw_closed x = [Some false; Some false].
Proof. vm_compute. repeat split; reflexivity. Qed.

(** FINDING.  If a file can't be written, the script exits without closing the engines; the game that
    was played has been printed, but the games that were asked for after it are not played. *)
Example C80_finding_write :
  let x := tw_demo (tw_demo_options "one" "two" 2 (Some "/full/")) (two_engines polite polite) both_start (fun p _ => Some (str "disk full")) in
  snd x = TwExit (str "error writing SGF file: disk full") /\ fst (tw_written x) = [str "one beat two B+1"] /\ tw_closed x = [Some false; Some false].
Proof. vm_compute. repeat split; reflexivity. Qed.

(** An option that gives no words. *)
Example C80_demo_empty : snd (tw_demo (tw_demo_options " " "two" 2 None) (two_engines polite polite) both_start (fun _ _ => None)) = TwRaised IndexError.
Proof. vm_compute. reflexivity. Qed.
