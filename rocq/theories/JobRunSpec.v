(** Specification vocabulary for running game jobs (C62). *)
From Verif Require Import Base Bytes PyStr Dict BoardModel CommonModel GameplayModel GameplaySpec ControllerModel ControllerSpec GtpGameModel
  GtpGameSpec EngineModel EngineSpec JobSgfModel JobSgfSpec JobRunModel.

(** ** The environment of an engine *)

(** A variable in the environment of a player's engine. *)
Definition variable (os : dict bytes) (p : gplayer) (id : bytes) (worker : option Z) (key : bytes) : option bytes :=
  match worker, bytes_eqb key (str "GOMILL_SLOT") with
  | Some n, true => Some (str_int n)
  | _, _ =>
      if bytes_eqb key (str "GOMILL_GAME_ID") then Some id
      else match gp_environ p with
           | Some e => match dget key e with Some v => Some v | None => dget key os end
           | None => dget key os
           end
  end.

(** ** What is said to an engine before the game *)

Definition command : Type := (bytes * list bytes)%type.

(** Finding out what the engine is (the description is only asked for if the engine knows how to
    give one). *)
Definition greeting (described : bool) : list command :=
  [(str "protocol_version", []); (str "name", []); (str "version", []);
   (str "known_command", [str "gomill-describe_engine"])] ++
  (if described then [(str "gomill-describe_engine", [])] else []).

Definition setting_up (j : game_job) : list command :=
  [(str "boardsize", [str_int (gj_size j)]); (str "clear_board", []); (str "komi", [gj_komi_text j])].

(** Placing the handicap. *)
Definition handicapping (j : game_job) (c : colour) (l : list command) : Prop :=
  match gj_handicap j with
  | None | Some 0 => l = []
  | Some h =>
      if gj_free j then
        match c with
        | Black => l = [(str "place_free_handicap", [str_int h])]
        | White => exists vertices, l = [(str "set_free_handicap", vertices)]
        end
      else l = [(str "fixed_handicap", [str_int h])]
  end.

(** Everything before the game.  The aliases don't apply to the greeting. *)
Definition opening (j : game_job) (c : colour) (described : bool) (handicap : list command) : list command :=
  let p := job_player j c in
  greeting described ++ map (aliased (gp_aliases p)) (gp_startup p ++ setting_up j ++ handicap).

(** The constructor of the recorded channels. *)
Definition watched {X} (spawn : colour -> list bytes -> dict bytes -> option bytes -> X + bytes)
  (c : colour) (cmd : list bytes) (env : dict bytes) (cwd : option bytes) : (X * list cevent) + bytes :=
  match spawn c cmd env cwd with inl x => inl (x, []) | inr text => inr text end.

(** A channel that has been closed once, as the last thing. *)
Definition closed_once (tr : list cevent) : Prop :=
  exists t x, tr = t ++ [EvClose x] /\ existsb is_close t = false.

(** ** Why a game was aborted *)

(** The name of a player in messages. *)
Definition player_called (code : bytes) : bytes := str "player " ++ code.

(** Something went wrong with a player: its process could not be started, its engine does not
    speak version 2 of the protocol, or there was a failure response or a problem with the channel. *)
Inductive player_trouble (j : game_job) (c : colour) : bytes -> Prop :=
| pt_spawn text : player_trouble j c
    (str "error starting subprocess for player " ++ gp_code (job_player j c) ++ str ":" ++ [char_lf] ++ text)
| pt_version v : player_trouble j c (player_called (gp_code (job_player j c)) ++ str " reports GTP protocol version " ++ v)
| pt_engine msg text : message_about (player_called (gp_code (job_player j c))) msg text -> player_trouble j c msg.

Inductive abort_reason {X} (j : game_job) (error_text : gtp_game X -> exn -> bytes) : bytes -> Prop :=
| ar_player c text : player_trouble j c text -> abort_reason j error_text text
| ar_handicap : abort_reason j error_text (str "invalid handicap")
| ar_game g e : e = bad_gtp \/ e = channel_error -> abort_reason j error_text (error_text g e).

(** The scorers and the claims that the players are allowed. *)
Definition may_score (j : game_job) (c : colour) : bool := negb (gj_internal j) && gp_reliable (job_player j c).
Definition scorers (j : game_job) : list colour := filter (may_score j) [Black; White].

(** The backend is set up as the job says. *)
Record as_ordered {X} (j : game_job) (b : gbackend X) : Prop := mkOrdered {
  ao_size : gb_size b = gj_size j;
  ao_komi : gb_komi b = gj_komi j /\ gb_komi_text b = gj_komi_text j;
  ao_claims : forall c, claim_allowed c b = gp_claims (job_player j c);
  ao_scorers : gb_scorers b = scorers j;
  ao_internal : gb_internal b = gj_internal j /\ (gj_internal j = true -> gb_comp b = gj_comp j);
  ao_handicap : gb_handicap b = match gj_handicap j with Some 0 => None | h => h end;
  ao_codes : g_code_b (gb_gc b) = gp_code (gj_b j) /\ g_code_w (gb_gc b) = gp_code (gj_w j)
}.

(** The warnings of a finished game. *)
Definition warnings_of (gr : game_result) (l : list bytes) : Prop :=
  (r_forfeit (gr_base gr) = false /\ l = []) \/
  (r_forfeit (gr_base gr) = true /\ exists d, l = [d] /\ r_detail (gr_base gr) = Some d).

(** ** The handicap stones *)

(** The last thing that was said to an engine, and its answer. *)
Definition last_said {X} (k : controller (X * list cevent)) (command : bytes) (args : list bytes) (answer : bytes) : Prop :=
  exists before, trace k = before ++ [EvSend (meaning (c_aliases k) command) args None; EvGet (inl (false, answer))].

(** With a free handicap: the points that Black's engine named, all different; White's engine is
    told them.  With a fixed handicap: the points of the GTP specification; both engines were
    asked to place the stones, and named those points. *)
Definition stones_from {X} (j : game_job) (kb kw : controller (X * list cevent)) (stones : option (list point)) : Prop :=
  match gj_handicap j with
  | None | Some 0 => stones = None
  | Some h =>
      if gj_free j then
        exists pts text vertices answer, stones = Some pts /\ 2 <= h <= gj_size j * gj_size j - 1 /\ NoDup pts /\
          last_said kb (str "place_free_handicap") [str_int h] text /\
          Forall2 (fun v p => move_from_vertex v (gj_size j) = Ok (Some p)) (split_on char_sp text) pts /\
          last_said kw (str "set_free_handicap") vertices answer /\
          Forall2 (fun p v => format_vertex (Some p) = Ok v) pts vertices
      else
        exists pts, stones = Some pts /\ handicap_points h (gj_size j) = Ok pts /\
          forall k, k = kb \/ k = kw -> exists text moves, last_said k (str "fixed_handicap") [str_int h] text /\
            Forall2 (fun v m => move_from_vertex v (gj_size j) = Ok m) (split_on char_sp text) moves /\
            forall m, In m moves <-> exists p, m = Some p /\ In p pts
  end.

(** ** What an engine says about itself *)

(** The text of a success response; none otherwise. *)
Definition response_text (evs : list cevent) : option bytes :=
  match evs with [EvSend _ _ None; EvGet (inl (false, text))] => Some text | _ => None end.

(** The conversation starts with the greeting, and [e] describes what the engine answered. *)
Definition introduced (sanitise : bytes -> bytes) (tr : list cevent) (e : engine) : Prop :=
  exists e1 e2 e3 e4 e5 rest, tr = e1 ++ e2 ++ e3 ++ e4 ++ e5 ++ rest /\
    exchange (str "protocol_version") [] e1 /\ exchange (str "name") [] e2 /\ exchange (str "version") [] e3 /\
    exchange (str "known_command") [str "gomill-describe_engine"] e4 /\
    (if says_yes e4 then exchange (str "gomill-describe_engine") [] e5 else e5 = []) /\
    new_engine sanitise (response_text e2) (response_text e3) (response_text e5) = Ok e.

(** ** The whole conversation with an engine *)

(** An engine is told what comes before the game.  If not everything was said, nothing else was,
    except perhaps to quit. *)
Definition spoken_to {X} (j : game_job) (c : colour) (k : controller (X * list cevent)) : Prop :=
  exists described handicap first rest, handicapping j c handicap /\ sent (trace k) = first ++ rest /\
    prefix_of first (opening j c described handicap) /\
    (first = opening j c described handicap \/ rest = [] \/ rest = [(str "quit", [])] \/
     rest = [(meaning (gp_aliases (job_player j c)) (str "quit"), [])]).

(** A game that is about to be played, as the job says, with engines that have been told
    everything. *)
Record set_up_for {X} (ch : colour -> channel X) (j : game_job) (g : gtp_game (X * list cevent)) (stones : option (list point)) : Prop := mkSetUp {
  su_ready : ready (ga_runner g) (gj_size j) (Some (gj_limit j)) stones;
  su_komi : ru_komi (ga_runner g) = gj_komi j;
  su_engaged : engaged ch (ga_backend g);
  su_ordered : as_ordered j (ga_backend g);
  su_id : ga_id g = Some (gj_id j);
  su_unplayed : ga_result g = None;
  su_said : forall c k, g_get c (gb_gc (ga_backend g)) = Some k ->
    exists described handicap, handicapping j c handicap /\ sent (trace k) = opening j c described handicap;
  su_stones : forall kb kw, g_get Black (gb_gc (ga_backend g)) = Some kb -> g_get White (gb_gc (ga_backend g)) = Some kw ->
    stones_from j kb kw stones
}.

(** ** The result *)

(** The result of the game, with the CPU times that were missing filled in from the resource usage
    of the engine's process, unless the engine gave a time that can't be understood. *)
Definition timed {X} (usage : colour -> X -> option pfloat) (g : gtp_game X) (chans : colour -> X) (gr : game_result) : Prop :=
  exists gr0 eb ew, ga_result g = Some gr0 /\ ga_cpu_errors g = Some (eb, ew) /\
    let time (c : colour) (given : option pfloat) (error : bool) :=
      match given with Some t => Some t | None => if error then None else usage c (chans c) end in
    gr = mkGR (gr_base gr0) (gr_player_b gr0) (gr_player_w gr0) (gr_id gr0)
              (time Black (gr_cpu_b gr0) eb) (time White (gr_cpu_w gr0) ew).

(** The errors that happened in closing the engines, or that were left from before. *)
Definition late_errors {X} (g : gctl (X * list cevent)) : list bytes :=
  match g_get Black g with Some k => c_errors k | None => [] end ++
  match g_get White g with Some k => c_errors k | None => [] end.

(** The message of a job that was aborted. *)
Definition abort_message (text : bytes) (late : list bytes) : bytes :=
  lines ([str "aborting game due to error:"; text] ++ match late with [] => [] | _ => [str "also:"; lines late] end).

(** The process of a player's engine can't be started. *)
Definition cannot_start {X} (spawn : colour -> list bytes -> dict bytes -> option bytes -> X + bytes)
  (os_environ : dict bytes) (j : game_job) (worker : option Z) (c : colour) : Prop :=
  let p := job_player j c in
  exists env text, (forall key, dget key env = variable os_environ p (gj_id j) worker key) /\ spawn c (gp_cmd p) env (gp_cwd p) = inr text.
