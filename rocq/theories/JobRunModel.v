(** Model of gomill/game_jobs.py:53-62 (Player.make_environ), 175-291 (Game_job.run) and
    gomill/gtp_controller.py:943-1000, 1116-1140. *)
From Verif Require Import Base Bytes PyStr Dict BoardModel CommonModel SgfPropsModel SgfTreeModel GameplayModel
  ControllerModel GtpGameModel EngineModel GameSgfModel JobSgfModel.

(** [d.update(e)]. *)
Definition dict_update {A} (d e : dict A) : dict A := fold_left (fun d p => dset (fst p) (snd p) d) e d.

(** game_jobs.py:74-90 Game_job_result.  Left out: game_data, which is copied from the job. *)
Record response : Type := mkResponse {
  rp_id : bytes;
  rp_result : game_result;
  rp_warnings : list bytes;
  rp_log : list bytes;
  rp_engines : dict (option engine)
}.

(** What running a job does: returns a response, raises JobFailed, or raises something else; with
    the SGF file that was written, if there is one. *)
Inductive job_end : Type :=
| Finished (r : response) (file : written)
| Failed (msg : bytes) (file : written)
| Crashed (e : exn).

Section Run.
Context {X : Type}.
Variable ch : colour -> channel X.
Variables (sanitise : bytes -> bytes) (pick : nat -> nat).
(** [os.environ]. *)
Variable os_environ : dict bytes.
(** The constructor of Subprocess_gtp_channel (gtp_controller.py:297-343), for a player's command,
    environment and working directory: a channel, or GtpChannelError with its text. *)
Variable spawn : colour -> list bytes -> dict bytes -> option bytes -> X + bytes.
(** [ru_utime + ru_stime] of a closed channel's resource_usage, if it is known. *)
Variable usage : colour -> X -> option pfloat.
(** The text of a BadGtpResponse or GtpChannelError from Gtp_game's prepare, set_handicap and run
    (GtpGameModel does not keep it). *)
Variable error_text : gtp_game X -> exn -> bytes.
(** As in JobSgfModel. *)
Variables (version today : bytes) (cpu_text : pfloat -> bytes) (now : bytes).

Variable j : game_job.
Variable worker : option Z.
Definition job_player (c : colour) : gplayer := match c with Black => gj_b j | White => gj_w j end.

(** game_jobs.py:53-62 [make_environ]. *)
Definition make_environ (p : gplayer) : dict bytes :=
  match gp_environ p with Some e => dict_update os_environ e | None => os_environ end.

(** game_jobs.py:214-217. *)
Definition job_environ (p : gplayer) : dict bytes :=
  let env := dset (str "GOMILL_GAME_ID") (gj_id j) (make_environ p) in
  match worker with Some n => dset (str "GOMILL_SLOT") (str_int n) env | None => env end.

(** The game (with its game controller), and the controller's engine_descriptions. *)
Record running : Type := mkRunning {
  rn_game : gtp_game X;
  rn_b : option engine;
  rn_w : option engine
}.
Definition rn_engine (c : colour) (s : running) : option engine := match c with Black => rn_b s | White => rn_w s end.

Definition put_backend (b : gbackend X) (s : running) : running :=
  let g := rn_game s in
  mkRunning (mkGame (ga_runner g) b (ga_id g) (ga_result g) (ga_cpu_errors g)) (rn_b s) (rn_w s).
Definition rn_backend (s : running) : gbackend X := ga_backend (rn_game s).
Definition rn_gc (s : running) : gctl X := gb_gc (rn_backend s).
Definition put_gc (g : gctl X) (s : running) : running := put_backend (with_gc g (rn_backend s)) s.
Definition put_engine (c : colour) (e : engine) (s : running) : running :=
  match c with
  | Black => mkRunning (rn_game s) (Some e) (rn_w s)
  | White => mkRunning (rn_game s) (rn_b s) (Some e)
  end.

(** gtp_games.py:442-444 [allow_scorer] and 453 [set_claim_allowed]. *)
Definition allow_scorer (c : colour) (s : gbackend X) : gbackend X :=
  mkGB (gb_gc s) (gb_size s) (gb_komi s) (gb_komi_text s) (gb_claim_b s) (gb_claim_w s) (gb_scorers s ++ [c])
       (gb_internal s) (gb_comp s) (gb_handicap s) (gb_raw s).
Definition set_claim_allowed (c : colour) (s : gbackend X) : gbackend X :=
  mkGB (gb_gc s) (gb_size s) (gb_komi s) (gb_komi_text s)
       (match c with Black => true | White => gb_claim_b s end) (match c with Black => gb_claim_w s | White => true end)
       (gb_scorers s) (gb_internal s) (gb_comp s) (gb_handicap s) (gb_raw s).

(** game_jobs.py:226-227: the startup commands. *)
Fixpoint send_all (g : gctl X) (c : colour) (l : list (bytes * list bytes)) : gctl X * cres unit :=
  match l with
  | [] => (g, CRet tt)
  | (command, args) :: rest =>
      match send_command ch g c command args with
      | (g', CRet _) => send_all g' c rest
      | (g', CBad m x) => (g', CBad m x)
      | (g', CChan k m) => (g', CChan k m)
      | (g', CExn e) => (g', CExn e)
      end
  end.

(** gtp_controller.py:941-964 [set_player_controller]. *)
Definition set_player_controller (c : colour) (k : controller X) (s : running) : running * cres unit :=
  match check_protocol_version (ch c) k with
  | (k1, CRet _) =>
      match from_controller sanitise (ch c) k1 with
      | (k2, CRet e) => (put_engine c e (put_gc (g_put c k2 (rn_gc s)) s), CRet tt)
      | (k2, CBad m x) => (put_gc (g_put c k2 (rn_gc s)) s, CBad m x)
      | (k2, CChan kd m) => (put_gc (g_put c k2 (rn_gc s)) s, CChan kd m)
      | (k2, CExn e) => (put_gc (g_put c k2 (rn_gc s)) s, CExn e)
      end
  | (k1, CBad m x) => (put_gc (g_put c k1 (rn_gc s)) s, CBad m x)
  | (k1, CChan kd m) => (put_gc (g_put c k1 (rn_gc s)) s, CChan kd m)
  | (k1, CExn e) => (put_gc (g_put c k1 (rn_gc s)) s, CExn e)
  end.

(** gtp_controller.py:966-997 [set_player_subprocess]. *)
Definition set_player_subprocess (c : colour) (p : gplayer) (s : running) : running * cres unit :=
  let code := g_code c (rn_gc s) in
  match spawn c (gp_cmd p) (job_environ p) (gp_cwd p) with
  | inr text => (s, CChan KChannel (str "error starting subprocess for player " ++ code ++ colon_lf ++ text))
  | inl x => set_player_controller c (new_controller x (str "player " ++ code)) s
  end.

(** game_jobs.py:198-227 [_start_player].  Left out: the files for stderr and the GTP log. *)
Definition start_job_player (c : colour) (s : running) : running * cres unit :=
  let p := job_player c in
  let b1 := if negb (gj_internal j) && gp_reliable p then allow_scorer c (rn_backend s) else rn_backend s in
  let b2 := if gp_claims p then set_claim_allowed c b1 else b1 in
  match set_player_subprocess c p (put_backend b2 s) with
  | (s1, CRet _) =>
      match g_get c (rn_gc s1) with
      | None => (s1, CExn KeyError)
      | Some k =>
          let s2 := put_gc (g_put c (set_gtp_aliases (gp_aliases p) k) (rn_gc s1)) s1 in
          let (g3, r) := send_all (rn_gc s2) c (gp_startup p) in
          (put_gc g3 s2, r)
      end
  | x => x
  end.

(** gtp_games.py:383-393, 397-407, 411-428: the game, before the players are started. *)
Definition job_game (gc : gctl X) : running :=
  mkRunning
    (mkGame (new_runner (gj_size j) (gj_komi j) (Some (gj_limit j)))
       (mkGB gc (gj_size j) (gj_komi j) (gj_komi_text j) false false [] (gj_internal j)
             (if gj_internal j then gj_comp j else CompNo) None [])
       (Some (gj_id j)) None None)
    None None.

(** How far the part of [_run] that may be aborted (game_jobs.py:249-261) got. *)
Inductive progress : Type :=
| Going
| Aborted (text : bytes)          (* GtpChannelError or BadGtpResponse *)
| Raised (e : exn).               (* anything else *)

Definition of_cres (r : cres unit) : progress :=
  match r with CRet _ => Going | CBad m _ => Aborted m | CChan _ m => Aborted m | CExn e => Raised (other_exn e) end.
Definition is_gtp_error (e : exn) : bool := match e with OtherError n => Nat.eqb n 1 || Nat.eqb n 2 | _ => false end.
Definition of_res_unit (g : gtp_game X) (r : res unit) : progress :=
  match r with Ok _ => Going | Err e => if is_gtp_error e then Aborted (error_text g e) else Raised e end.

Definition go_on (x : running * progress) (f : running -> running * progress) : running * progress :=
  match x with (s, Going) => f s | _ => x end.
Definition cgo (x : running * cres unit) : running * progress := (fst x, of_cres (snd x)).

Definition the_backend : backend (gbackend X) := gtp_backend ch sanitise pick None.

(** A game runner's operation, seen as one on the game. *)
Definition on_game (f : runner -> gbackend X -> runner * gbackend X * res unit) (s : running) : running * res unit :=
  let g := rn_game s in
  match f (ga_runner g) (ga_backend g) with
  | (r1, b1, x) => (mkRunning (mkGame r1 b1 (ga_id g) (ga_result g) (ga_cpu_errors g)) (rn_b s) (rn_w s), x)
  end.

(** gtp_games.py:483 [self.backend.handicap = handicap]. *)
Definition with_gb_handicap (h : Z) (s : gbackend X) : gbackend X :=
  mkGB (gb_gc s) (gb_size s) (gb_komi s) (gb_komi_text s) (gb_claim_b s) (gb_claim_w s) (gb_scorers s) (gb_internal s)
       (gb_comp s) (Some h) (gb_raw s).

(** game_jobs.py:254 [game.prepare()]. *)
Definition job_prepare (s : running) : running * progress :=
  let (s1, r) := on_game (prepare the_backend) s in (s1, of_res_unit (rn_game s1) r).

(** game_jobs.py:255-259, gtp_games.py:467-484. *)
Definition job_handicap (s : running) : running * progress :=
  match gj_handicap j with
  | None | Some 0 => (s, Going)
  | Some h =>
      match on_game (fun r b => set_handicap the_backend r (with_gb_handicap h b) h (gj_free j)) s with
      | (s1, Err ValueError) => (s1, Aborted (str "invalid handicap"))
      | (s1, r) => (s1, of_res_unit (rn_game s1) r)
      end
  end.

(** game_jobs.py:260 [game.run()].  The game is over after at most [move_limit] moves (at least
    one is played), so that the bound on the number of rounds is never reached: see
    [C32_terminates]. *)
Definition job_play (s : running) : running * progress :=
  let (g1, r) := run_gtp_game ch sanitise pick None (Z.to_nat (Z.max 1 (gj_limit j))) (rn_game s) in
  (mkRunning g1 (rn_b s) (rn_w s), of_res_unit g1 r).

(** game_jobs.py:249-260. *)
Definition job_body (s : running) : running * progress :=
  go_on (cgo (start_job_player Black s)) (fun s1 =>
  go_on (cgo (start_job_player White s1)) (fun s2 =>
  go_on (job_prepare s2) (fun s3 =>
  go_on (job_handicap s3) job_play))).

(** The engine descriptions, if there are two. *)
Definition both_engines (s : running) : option (colour -> engine) :=
  match rn_b s, rn_w s with
  | Some b, Some w => Some (fun c => match c with Black => b | White => w end)
  | _, _ => None
  end.

(** game_jobs.py:363-385.  If an engine description is missing, making the record raises
    AttributeError. *)
Definition job_record_finished (s : running) (w : world) : world * res written :=
  match both_engines s with
  | Some engines => record_finished version today engines cpu_text now j (rn_game s) w
  | None =>
      match gj_dirname j, gj_filename j with Some _, Some _ => (w, Err AttributeError) | _, _ => (w, Ok None) end
  end.
Definition job_record_void (s : running) (msg : bytes) (w : world) : world * res written :=
  match both_engines s with
  | Some engines => record_void version today engines cpu_text now j (rn_game s) msg w
  | None =>
      match ru_moves (ga_runner (rn_game s)) with
      | [] => (w, Ok None)
      | _ => match gj_void_dirname j, gj_filename j with Some _, Some _ => (w, Err AttributeError) | _, _ => (w, Ok None) end
      end
  end.

(** [game_controller.close_players()]; the result is the exception, if one is raised. *)
Definition job_close (s : running) : running * option exn :=
  let (g, r) := close_players ch (rn_gc s) in
  (put_gc g s,
   match r with CRet _ => None | CBad _ _ => Some bad_gtp | CChan _ _ => Some channel_error | CExn e => Some (other_exn e) end).

(** game_jobs.py:261-269: the game is aborted. *)
Definition job_abort (s : running) (text : bytes) (w : world) : world * running * job_end :=
  match job_close s with
  | (s1, Some e) => (w, s1, Crashed e)
  | (s1, None) =>
      let msg := str "aborting game due to error:" ++ [char_lf] ++ text in
      match job_record_void s1 msg w with
      | (w1, Err e) => (w1, s1, Crashed e)
      | (w1, Ok file) =>
          let all := match describe_late_errors (rn_gc s1) with
                     | Some late => msg ++ [char_lf] ++ str "also:" ++ [char_lf] ++ late
                     | None => msg
                     end in
          (w1, s1, Failed all file)
      end
  end.

(** gtp_controller.py:1116-1140 [get_resource_usage_cpu_times], for one player. *)
Definition resource_time (c : colour) (g : gctl X) : option pfloat :=
  match g_get c g with Some k => usage c (c_chan k) | None => None end.

(** game_jobs.py:270-291: the game was played. *)
Definition job_finish (s : running) (w : world) : world * running * job_end :=
  match ga_result (rn_game s) with
  | None => (w, s, Crashed AttributeError)
  | Some gr =>
      let warnings :=
        if r_forfeit (gr_base gr) then match r_detail (gr_base gr) with Some d => [d] | None => [str "None"] end else [] in
      match job_close s with
      | (s1, Some e) => (w, s1, Crashed e)
      | (s1, None) =>
          match ga_cpu_errors (rn_game s1) with
          | None => (w, s1, Crashed TypeError)
          | Some (eb, ew) =>
              let time (c : colour) (error : bool) := if error then None else Some (resource_time c (rn_gc s1)) in
              let gr' := soft_update_cpu_times (time Black eb) (time White ew) gr in
              let g1 := rn_game s1 in
              let s2 := mkRunning (mkGame (ga_runner g1) (ga_backend g1) (ga_id g1) (Some gr') (ga_cpu_errors g1)) (rn_b s1) (rn_w s1) in
              let log := match describe_late_errors (rn_gc s1) with Some (c :: r) => [c :: r] | _ => [] end in
              match job_record_finished s2 w with
              | (w1, Err e) => (w1, s2, Crashed e)
              | (w1, Ok file) =>
                  (w1, s2, Finished
                     (mkResponse (gj_id j) gr' warnings log
                        (dset (gp_code (gj_w j)) (rn_w s2) (dset (gp_code (gj_b j)) (rn_b s2) [])))
                     file)
              end
          end
      end
  end.

(** game_jobs.py:177-196, 229-291 [run].  Left out: the log files.  [None] for the final state if
    the game was never created. *)
Definition run_job (w : world) : world * option running * job_end :=
  match new_gctl (gp_code (gj_b j)) (gp_code (gj_w j)) with
  | Err _ => (w, None, Failed (str "error creating game: player codes must be distinct") None)
  | Ok gc =>
      match job_body (job_game gc) with
      | (s, Going) => match job_finish s w with (w1, s1, r) => (w1, Some s1, r) end
      | (s, Aborted text) => match job_abort s text w with (w1, s1, r) => (w1, Some s1, r) end
      | (s, Raised e) => (w, Some s, Crashed e)
      end
  end.
End Run.
Arguments running X : clear implicits.
