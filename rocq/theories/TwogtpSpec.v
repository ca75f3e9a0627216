(** Specification of a run of twogtp (C80). *)
From Verif Require Import Base Bytes PyStr Dict BoardModel BoardSpec CommonModel ControllerModel ControllerSpec SgfPropsModel SgfValueSpec SgfTreeModel SgfTreeSpec GameplayModel GameplaySpec GameSgfModel GameSgfSpec
  GtpGameModel GtpGameSpec EngineModel EngineSpec JobSgfModel JobSgfSpec JobRunModel JobRunSpec TwogtpModel.

(** The constructor of the recorded channels. *)
Definition tw_watched {X} (spawn : colour -> list bytes -> X + bytes) (c : colour) (cmd : list bytes) : (X * list cevent) + bytes :=
  match spawn c cmd with inl x => inl (x, []) | inr text => inr text end.

Section Series.
Context {X : Type} (ch : colour -> channel X).
Variables (sanitise : bytes -> bytes) (pick : nat -> nat) (o : tw_options).
Notation gc := (gctl (X * list cevent)).
Notation game := (gtp_game (X * list cevent)).
Notation chr := (fun c => recorded (ch c)).

(** What both engines are told before each game. *)
Definition tw_setting_up : list command :=
  [(str "boardsize", [str_int (tw_size o)]); (str "clear_board", []); (str "komi", [tw_komi_text o])].

(** The engine of [c] is running, under the name "player <code>", and has not been told to close. *)
Definition tw_alive (code : colour -> bytes) (c : colour) (k : controller (X * list cevent)) : Prop :=
  reached (ch c) k /\ c_closed k = false /\ existsb is_close (trace k) = false /\
  c_name k = player_called (code c) /\ c_aliases k = [].

(** A game that is about to be played with the engines as they are in [g]: a new game, with the size
    and the komi of the options and at most 1000 moves, without handicap; both engines may score and
    neither may claim; both engines have just been told about it, and have agreed. *)
Record tw_begun (code : colour -> bytes) (g : gc) (g0 : game) : Prop := mkTwBegun {
  tb_ready : ready (ga_runner g0) (tw_size o) (Some 1000) None;
  tb_komi : ru_komi (ga_runner g0) = tw_komi o;
  tb_engaged : engaged ch (ga_backend g0);
  tb_scoring : gb_scorers (ga_backend g0) = [Black; White] /\ gb_internal (ga_backend g0) = false;
  tb_claims : forall c, claim_allowed c (ga_backend g0) = false;
  tb_unplayed : ga_result g0 = None /\ ga_id g0 = None /\ gb_handicap (ga_backend g0) = None;
  tb_codes : forall c, g_code c (gb_gc (ga_backend g0)) = code c;
  tb_told : forall c, exists k k', g_get c g = Some k /\ g_get c (gb_gc (ga_backend g0)) = Some k' /\ tw_alive code c k' /\
    prefix_of (trace k) (trace k') /\ sent (trace k') = sent (trace k) ++ tw_setting_up
}.

(** The games played one after the other, with the same engines. *)
Inductive tw_played (code : colour -> bytes) : gc -> list game -> gc -> Prop :=
| tp_none g : tw_played code g [] g
| tp_game g g0 g1 gr l g2 :
    tw_begun code g g0 -> run_gtp_game chr sanitise pick None (Z.to_nat 1000) g0 = (g1, Ok tt) -> ga_result g1 = Some gr ->
    tw_played code (gb_gc (ga_backend g1)) l g2 -> tw_played code g (g1 :: l) g2.

(** The line printed for a game. *)
Definition tw_line (g : game) (line : bytes) : Prop := exists gr, ga_result g = Some gr /\ line = result_line gr.

(** An engine that has been found out about, and nothing else. *)
Definition tw_greeted (code : colour -> bytes) (c : colour) (g : gc) (e : option engine) : Prop :=
  exists k en described, g_get c g = Some k /\ tw_alive code c k /\ sent (trace k) = greeting described /\
    e = Some en /\ introduced sanitise (trace k) en.

(** All engines that were started have been closed, once. *)
Definition tw_all_closed (code : colour -> bytes) (g : gc) : Prop :=
  forall c k, g_get c g = Some k -> reached (ch c) k /\ c_name k = player_called (code c) /\ c_closed k = true /\ closed_once (trace k).

(** From [g] to [g'], both engines were closed, after having been told to quit or having broken down. *)
Definition tw_shut (g g' : gc) : Prop :=
  forall c, exists k k', g_get c g = Some k /\ g_get c g' = Some k' /\ prefix_of (trace k) (trace k') /\
    (sent (trace k') = sent (trace k) \/ sent (trace k') = sent (trace k) ++ [(str "quit", [])]) /\
    c_closed k' = true /\ closed_once (trace k').

(** Something was wrong with a player's process or its channel. *)
Inductive tw_trouble (code : colour -> bytes) (c : colour) : bytes -> Prop :=
| tt_spawn text : tw_trouble code c (str "error starting subprocess for player " ++ code c ++ str ":" ++ [char_lf] ++ text)
| tt_channel m text : message_about (player_called (code c)) m text -> tw_trouble code c m.

(** ** The files *)
Variables (version today : bytes) (write : bytes -> bytes -> option bytes) (error_text : game -> exn -> bytes).
Variable engines : colour -> engine.

(** The record of a game, as twogtp makes it. *)
Definition tw_document (g : game) : document :=
  on_root (put (str "AP") PT_AP (VPair (str "Gomill twogtp") version)) (gtp_document version today engines g).

(** Whoever loads the text sees the document. *)
Definition tw_shows (g : game) (text : bytes) : Prop :=
  forall w0, reachable_world w0 -> exists w1 sg nodes, load_string w0 text UTF_8 false = (w1, Ok tt) /\
    g_size sg = ru_size (ga_runner g) /\ reachable_world w1 /\ g_pres sg = new_presenter (g_size sg) UTF_8 /\
    displays (tw_document g) w1 (List.length (w_games w0)) sg nodes.

(** All can be recorded. *)
Definition tw_recordable (w : world) (games : list game) : Prop :=
  reachable_world w /\ Forall (gtp_recordable version today engines) games.

(** The files of the games, numbered from [i]. *)
Definition tw_saved (w : world) (i : nat) (games : list game) (files : list (bytes * bytes)) : Prop :=
  match tw_sgfbase o with
  | None => files = []
  | Some prefix =>
      map fst files = map (fun n => prefix ++ zfill 3 (str_int (Z.of_nat n)) ++ str ".sgf") (seq i (List.length games)) /\
      (tw_recordable w games -> Forall2 (fun g f => tw_shows g (snd f)) games files)
  end.

(** ** The end of a series of [n] games: [games] have been played, the engines are as in [g']. *)
Inductive tw_ending (code : colour -> bytes) (w : world) (n i : nat) (games : list game) (gm g' : gc) (files : list (bytes * bytes)) : tw_end -> Prop :=
| te_done : List.length games = n -> tw_saved w i games files -> tw_shut gm g' -> late_errors g' = [] ->
    tw_ending code w n i games gm g' files TwDone
| te_late : List.length games = n -> tw_saved w i games files -> tw_shut gm g' -> late_errors g' <> [] ->
    tw_ending code w n i games gm g' files (TwExit (lines (late_errors g')))
| te_abort g e : (List.length games < n)%nat -> tw_saved w i games files -> tw_all_closed code g' -> (e = bad_gtp \/ e = channel_error) ->
    (ru_moves (ga_runner g) = [] \/
     exists g0, tw_begun code gm g0 /\ run_gtp_game chr sanitise pick None (Z.to_nat 1000) g0 = (g, Err e)) ->
    tw_ending code w n i games gm g' files (TwExit (lines [str "aborting run due to error:"; error_text g e; []]))
| te_write before g prefix text message : games = before ++ [g] -> (List.length games <= n)%nat -> tw_saved w i before files ->
    tw_sgfbase o = Some prefix -> (tw_recordable w games -> tw_shows g text) ->
    write (prefix ++ zfill 3 (str_int (Z.of_nat (i + List.length before))) ++ str ".sgf") text = Some message -> g' = gm ->
    tw_ending code w n i games gm g' files (TwExit (str "error writing SGF file: " ++ message))
| te_raised x : (List.length games <= n)%nat -> tw_saved w i games files -> tw_ending code w n i games gm g' files (TwRaised x)
| te_unrecorded before g x : games = before ++ [g] -> (List.length games <= n)%nat -> tw_saved w i before files ->
    tw_sgfbase o <> None -> ~ tw_recordable w games -> tw_ending code w n i games gm g' files (TwRaised x).
End Series.

(** The codes of the players: the first words of the commands, told apart if need be. *)
Definition tw_code (b w : bytes) (c : colour) : bytes :=
  if bytes_eqb b w then match c with Black => b ++ str "-b" | White => w ++ str "-w" end
  else match c with Black => b | White => w end.

(** A command that the options give: not empty. *)
Definition tw_given (option : option bytes) (text : bytes) : Prop := option = Some text /\ text <> [].

(** How a run of the script ends once the commands are known ([t]: the state at the end). *)
Inductive tw_outcome {X : Type} (ch : colour -> channel X) (sanitise : bytes -> bytes) (pick : nat -> nat) (o : tw_options)
  (version today : bytes) (write : bytes -> bytes -> option bytes) (error_text : gtp_game (X * list cevent) -> exn -> bytes)
  (code : colour -> bytes) (started : colour -> Prop) (w : world) (t : tw_state (X * list cevent)) : tw_end -> Prop :=
(** A player could not be set up: there are no games.  White's engine is not started if there was trouble with Black's. *)
| to_trouble c m : tw_out t = [] -> tw_files t = [] -> tw_trouble code c m ->
    tw_all_closed ch code (rn_gc (tw_run t)) -> (c = Black -> g_get White (rn_gc (tw_run t)) = None) ->
    (forall d, g_get d (rn_gc (tw_run t)) <> None -> started d) ->
    tw_outcome ch sanitise pick o version today write error_text code started w t (TwExit (lines [str "error creating players:"; m; []]))
| to_raised x : tw_out t = [] -> tw_files t = [] -> tw_outcome ch sanitise pick o version today write error_text code started w t (TwRaised x)
(** The games were played, one line was printed for each. *)
| to_played g engines games gm printed e : (forall c, tw_greeted ch sanitise code c g (Some (engines c))) -> (forall c, started c) ->
    tw_played ch sanitise pick o code g games gm ->
    tw_out t = printed -> Forall2 tw_line games printed ->
    tw_ending ch sanitise pick o version today write error_text engines code w (Z.to_nat (tw_games o)) 0 games gm (rn_gc (tw_run t)) (tw_files t) e ->
    tw_outcome ch sanitise pick o version today write error_text code started w t e.
