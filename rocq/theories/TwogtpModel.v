(** Model of gomill_examples/twogtp.  Left out: what --verbose prints. *)
From Verif Require Import Base Bytes PyStr Dict BoardModel CommonModel SgfPropsModel SgfTreeModel GameplayModel
  ControllerModel GtpGameModel EngineModel GameSgfModel JobSgfModel JobRunModel.

(** twogtp:39-47: the options.  [tw_komi_text]: [str(options.komi)]. *)
Record tw_options : Type := mkTwOptions {
  tw_black : option bytes;
  tw_white : option bytes;
  tw_komi : num;
  tw_komi_text : bytes;
  tw_size : Z;
  tw_games : Z;
  tw_sgfbase : option bytes
}.

(** How the script ends.  [TwUsage]: a usage error; [TwExit]: sys.exit with a message; [TwRaised]: an
    exception (a traceback). *)
Inductive tw_end : Type :=
| TwDone
| TwUsage (text : bytes)
| TwExit (text : bytes)
| TwRaised (e : exn).

(** [d % n] with "%03d". *)
Definition three_digits (n : nat) : bytes := zfill 3 (str_int (Z.of_nat n)).

Section Twogtp.
Context {X : Type}.
Variable ch : colour -> channel X.
Variables (sanitise : bytes -> bytes) (pick : nat -> nat).
(** The constructor of Subprocess_gtp_channel, as in JobRunModel.v; the environment and the working
    directory are inherited. *)
Variable spawn : colour -> list bytes -> X + bytes.
Variable error_text : gtp_game X -> exn -> bytes.
Variables (version today : bytes).
(** shlex.split, which can raise ValueError. *)
Variable shlex : bytes -> list bytes + bytes.
(** Writing a file: None, or the text of the EnvironmentError. *)
Variable write : bytes -> bytes -> option bytes.
Variable o : tw_options.

(** The state: the game with its game controller and engine descriptions; the lines printed; the files
    written; the world of SGF objects. *)
Record tw_state : Type := mkTw {
  tw_run : running X;
  tw_out : list bytes;
  tw_files : list (bytes * bytes);
  tw_world : world
}.
Definition put_run (s : running X) (t : tw_state) : tw_state := mkTw s (tw_out t) (tw_files t) (tw_world t).

(** twogtp:84-88, with gtp_games.py:383-428: a new game, with both players allowed to score. *)
Definition tw_new_game (g : gctl X) : gtp_game X :=
  mkGame (new_runner (tw_size o) (tw_komi o) (Some 1000))
    (allow_scorer White (allow_scorer Black
       (mkGB g (tw_size o) (tw_komi o) (tw_komi_text o) false false [] false CompNo None [])))
    None None None.

(** gtp_controller.py:966-997 [set_player_subprocess]. *)
Definition tw_player (c : colour) (command : list bytes) (s : running X) : running X * cres unit :=
  let code := g_code c (rn_gc s) in
  match spawn c command with
  | inr text => (s, CChan KChannel (str "error starting subprocess for player " ++ code ++ colon_lf ++ text))
  | inl x => set_player_controller ch sanitise c (new_controller x (str "player " ++ code)) s
  end.

(** twogtp:98-103: [game.prepare(); game.run()].  (The bound on the number of rounds is never reached:
    see [C32_terminates].) *)
Definition tw_play (s : running X) : running X * res unit :=
  let s0 := mkRunning (tw_new_game (rn_gc s)) (rn_b s) (rn_w s) in
  match on_game (prepare (the_backend ch sanitise pick)) s0 with
  | (s1, Err e) => (s1, Err e)
  | (s1, Ok _) =>
      let (g1, r) := run_gtp_game ch sanitise pick None (Z.to_nat 1000) (rn_game s1) in
      (mkRunning g1 (rn_b s1) (rn_w s1), r)
  end.

(** twogtp:71, 101, 116 [game_controller.close_players()], then [f]. *)
Definition tw_close (t : tw_state) (f : running X -> tw_end) : tw_state * tw_end :=
  match job_close ch (tw_run t) with
  | (s1, Some e) => (put_run s1 t, TwRaised e)
  | (s1, None) => (put_run s1 t, f s1)
  end.

(** twogtp:24-27 [write_sgf]. *)
Definition tw_path (prefix : bytes) (game_number : nat) : bytes := prefix ++ three_digits game_number ++ str ".sgf".

(** twogtp:107-113: the record of a game; [None] if all went well. *)
Definition tw_record (game_number : nat) (t : tw_state) : tw_state * option tw_end :=
  match tw_sgfbase o with
  | None => (t, None)
  | Some prefix =>
      match both_engines (tw_run t) with
      | None => (t, Some (TwRaised AttributeError))
      | Some engines =>
          let g := rn_game (tw_run t) in
          let sg := new_sgf (ru_size (ga_runner g)) (tw_world t) in
          let put_world (w : world) := mkTw (tw_run t) (tw_out t) (tw_files t) w in
          match then_do (gtp_make_sgf version today engines g (tw_world t))
                  (fun w1 => set_prop w1 (g_root sg) (str "AP") (VPair (str "Gomill twogtp") version)) with
          | (w1, Err e) => (put_world w1, Some (TwRaised e))
          | (w1, Ok _) =>
              match serialise_game w1 sg (Some 79) with
              | Err e => (put_world w1, Some (TwRaised e))
              | Ok text =>
                  let path := tw_path prefix game_number in
                  match write path text with
                  | Some message => (put_world w1, Some (TwExit (str "error writing SGF file: " ++ message)))
                  | None => (mkTw (tw_run t) (tw_out t) (tw_files t ++ [(path, text)]) w1, None)
                  end
              end
          end
      end
  end.

(** twogtp:83-120: the games from [game_number] on, and the end. *)
Fixpoint tw_series (n game_number : nat) (t : tw_state) : tw_state * tw_end :=
  match n with
  | O => tw_close t (fun s => match describe_late_errors (rn_gc s) with Some (c :: r) => TwExit (c :: r) | _ => TwDone end)
  | S n' =>
      match tw_play (tw_run t) with
      | (s1, Err e) =>
          if is_gtp_error e then
            tw_close (put_run s1 t) (fun _ => TwExit (str "aborting run due to error:" ++ [char_lf] ++ error_text (rn_game s1) e ++ [char_lf]))
          else (put_run s1 t, TwRaised e)
      | (s1, Ok _) =>
          match ga_result (rn_game s1) with
          | None => (put_run s1 t, TwRaised AttributeError)
          | Some gr =>
              match tw_record game_number (mkTw s1 (tw_out t ++ [describe gr]) (tw_files t) (tw_world t)) with
              | (t1, Some e) => (t1, e)
              | (t1, None) => tw_series n' (S game_number) t1
              end
          end
      end
  end.

(** twogtp:66-73, then the games. *)
Definition tw_start (black white : list bytes) (t : tw_state) : tw_state * tw_end :=
  let fails (m : bytes) := str "error creating players:" ++ [char_lf] ++ m ++ [char_lf] in
  match tw_player Black black (tw_run t) with
  | (s1, CChan _ m) => tw_close (put_run s1 t) (fun _ => TwExit (fails m))
  | (s1, CBad _ _) => (put_run s1 t, TwRaised bad_gtp)
  | (s1, CExn e) => (put_run s1 t, TwRaised (other_exn e))
  | (s1, CRet _) =>
      match tw_player White white s1 with
      | (s2, CChan _ m) => tw_close (put_run s2 t) (fun _ => TwExit (fails m))
      | (s2, CBad _ _) => (put_run s2 t, TwRaised bad_gtp)
      | (s2, CExn e) => (put_run s2 t, TwRaised (other_exn e))
      | (s2, CRet _) => tw_series (Z.to_nat (tw_games o)) O (put_run s2 t)
      end
  end.

(** twogtp:58-63: the players' codes. *)
Definition tw_codes (black white : list bytes) : res (bytes * bytes) :=
  match black, white with
  | b :: _, w :: _ => Ok (if bytes_eqb b w then (b ++ str "-b", w ++ str "-w") else (b, w))
  | _, _ => Err IndexError
  end.

(** twogtp:37-120 [main]; [args]: the arguments that aren't options.  (None: no game controller was
    created.) *)
Definition tw_main (args : list bytes) (w : world) : option tw_state * tw_end :=
  match args with
  | _ :: _ => (None, TwUsage (str "too many arguments"))
  | [] =>
      match truthy (tw_black o), truthy (tw_white o) with
      | Some b, Some wh =>
          match shlex b, shlex wh with
          | inl black, inl white =>
              match tw_codes black white with
              | Err e => (None, TwRaised e)
              | Ok (cb, cw) =>
                  match new_gctl cb cw with
                  | Err e => (None, TwRaised e)
                  | Ok g =>
                      let (t, e) := tw_start black white (mkTw (mkRunning (tw_new_game g) None None) [] [] w) in (Some t, e)
                  end
              end
          | _, _ => (None, TwRaised ValueError)
          end
      | _, _ => (None, TwUsage (str "players not specified"))
      end
  end.
End Twogtp.
Arguments tw_state X : clear implicits.
