(** Model of gomill_examples/gtp_test_player: an engine for testing the error handling of controllers. *)
From Verif Require Import Base Bytes PyStr Dict CommonModel GtpModel.

(** gtp_test_player:44-49: the attributes of a Test_player; and what happens besides the response while a
    command is handled: the text written to stdout, and whether the process kills itself. *)
Record player : Type := mkPlayer {
  delayed_error_move : option Z;
  delayed_error_args : list bytes;
  move_count : Z;
  raw_output : bytes;
  killed : bool
}.
Definition new_player : player := mkPlayer None [] 0 [] false.

Section TestPlayer.
(** The text of the traceback of the ZeroDivisionError. *)
Variable traceback : bytes.

(** gtp_test_player:57-69, the rest of handle_force_error after [args[0]].  [os.kill(os.getpid(), 15)]
    ends the process, so that what this returns then doesn't matter. *)
Definition force_error (p : player) (arg : bytes) : player * gres unit :=
  if bytes_eqb arg (str "error") then (p, GError (str "forced GTP error"))
  else if bytes_eqb arg (str "exit") then (p, GFatal (str "forced GTP error; exiting"))
  else if bytes_eqb arg (str "internal") then (p, GRaise traceback)
  else if bytes_eqb arg (str "kill") then
    (mkPlayer (delayed_error_move p) (delayed_error_args p) (move_count p) (raw_output p) true, GOk tt)
  else if bytes_eqb arg (str "protocol") then
    (mkPlayer (delayed_error_move p) (delayed_error_args p) (move_count p)
              (raw_output p ++ str "!! forced ill-formed GTP response" ++ [char_lf]) (killed p), GOk tt)
  else (p, GError (str "unknown force_error argument")).

(** gtp_test_player:86-107 [handle_force_error]. *)
Definition handle_force_error (p : player) (args : list bytes) : player * gres (option bytes) :=
  let (p', r) := force_error p match args with [] => str "error" | a :: _ => a end in
  (p', gbind r (fun _ => GOk None)).

Definition counted (p : player) : player :=
  mkPlayer (delayed_error_move p) (delayed_error_args p) (move_count p + 1) (raw_output p) (killed p).

(** gtp_test_player:57-69 [handle_genmove].  (A move number of 0 counts as none.) *)
Definition handle_genmove (p : player) (args : list bytes) : player * gres (option bytes) :=
  let p1 := counted p in
  match delayed_error_move p1 with
  | Some n =>
      if negb (n =? 0) && (n <=? move_count p1) then
        let p2 := mkPlayer None (delayed_error_args p1) (move_count p1) (raw_output p1) (killed p1) in
        let (p3, r) := handle_force_error p2 (delayed_error_args p2) in
        (p3, gbind r (fun _ => GOk (Some (str "pass"))))
      else (p1, GOk (Some (str "pass")))
  | None => (p1, GOk (Some (str "pass")))
  end.

(** gtp_test_player:71-72 [handle_play]. *)
Definition handle_play (p : player) (args : list bytes) : player * gres (option bytes) := (counted p, GOk None).

(** gtp_test_player:74-81 [handle_boardsize], [handle_clear_board], [handle_komi]. *)
Definition handle_nothing (p : player) (args : list bytes) : player * gres (option bytes) := (p, GOk None).

(** gtp_test_player:51-55 [handle_name], [handle_version]. *)
Definition handle_name (p : player) (args : list bytes) : player * gres (option bytes) := (p, GOk (Some (str "GTP test player"))).
Definition handle_version (p : player) (args : list bytes) : player * gres (option bytes) := (p, GOk (Some [])).

(** gtp_test_player:109-116 [handle_delayed_error]. *)
Definition handle_delayed_error (p : player) (args : list bytes) : player * gres (option bytes) :=
  match args with
  | [] => (p, report_bad_arguments)
  | a :: r =>
      match interpret_int a with
      | GOk n => (mkPlayer (Some n) r (move_count p) (raw_output p) (killed p), GOk None)
      | GError m => (p, GError m)
      | GFatal m => (p, GFatal m) | GQuit m => (p, GQuit m) | GRaise m => (p, GRaise m)   (* never happen *)
      end
  end.

(** gtp_test_player:118-139 [get_handlers] and [make_engine]. *)
Definition handlers : list (bytes * handler player) :=
  [(str "name", User handle_name); (str "version", User handle_version); (str "genmove", User handle_genmove);
   (str "play", User handle_play); (str "boardsize", User handle_nothing); (str "clear_board", User handle_nothing);
   (str "komi", User handle_nothing); (str "gomill-force_error", User handle_force_error);
   (str "gomill-delayed_error", User handle_delayed_error)].
Definition test_engine : engine player :=
  fold_left (fun e c => add_command e (fst c) (snd c)) handlers (add_protocol_commands new_engine).

(** What a controller sees of one command: text on stdout before the response, and the response (is it
    an error, its text, does the session end with it); or the end of the process. *)
Inductive turn : Type :=
| Answered (before : bytes) (is_error : bool) (text : bytes) (last : bool)
| Died.

(** gtp_test_player:141-147 and gtp_engine.py:428-462: a session, command by command (the lines that the
    commands are sent in are in GtpModel). *)
Definition turn_of (p : player) (command : bytes) (args : list bytes) : player * turn :=
  let p0 := mkPlayer (delayed_error_move p) (delayed_error_args p) (move_count p) [] (killed p) in
  let '(p', (is_error, text, last)) := run_command test_engine p0 command args in
  (p', if killed p' then Died else Answered (raw_output p') is_error text last).
Fixpoint serve_from (p : player) (cmds : list (bytes * list bytes)) : list turn :=
  match cmds with
  | [] => []
  | (command, args) :: rest =>
      let (p', t) := turn_of p command args in
      match t with
      | Answered _ _ _ false => t :: serve_from p' rest
      | _ => [t]
      end
  end.
Definition serve (cmds : list (bytes * list bytes)) : list turn := serve_from new_player cmds.

(** gtp_engine.py:370-381: what is written for it. *)
Definition written (t : turn) : bytes :=
  match t with
  | Died => []
  | Answered before is_error text _ =>
      before ++ (if is_error then str "?" else str "=") ++ (match text with [] => [] | _ => [char_sp] end) ++ text ++ [char_lf; char_lf]
  end.
End TestPlayer.
