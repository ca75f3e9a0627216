(** Model of gomill_examples/gtp_stateful_player: an engine that plays (and resigns) randomly. *)
From Verif Require Import Base Bytes PyStr Dict BoardModel CommonModel GtpModel GtpStateModel SaveModel.

(** What surrounds a command: as in GtpStateModel, and the random numbers: [ar_draw / 2^53] is what
    random.random() gives, [ar_choice] decides random.choice (any number: it's taken modulo the
    length of the list). *)
Record around : Type := mkAround {
  ar_pick : nat -> nat;
  ar_files : files;
  ar_draw : Z;
  ar_choice : nat;
  ar_version : bytes;                       (* of gomill, and the day (for gomill-savesgf) *)
  ar_today : bytes;
  ar_save : bytes -> option bytes
}.

(** [random.random() < p] for a number between 0 and 2^53; floats are exact decimals. *)
Definition draw_below (draw : Z) (p : Z * nat) : bool := draw * 10 ^ Z.of_nat (snd p) <? fst p * 2 ^ 53.

(** gtp_stateful_player:62-66: the loop over the points. *)
Fixpoint find_empties (b : board) (pts : list point) : res (list point) :=
  match pts with
  | [] => Ok []
  | (row, col) :: rest =>
      do v <- get b row col;
      do l <- find_empties b rest;
      Ok (match v with None => (row, col) :: l | Some _ => l end)
  end.

(** gtp_stateful_player:51-74 [genmove]. *)
Definition random_genmove (ar : around) (p : Z * nat) : generator := fun game_state player =>
  let board := gs_board game_state in
  do empties <- find_empties board (board_points (side board));
  if draw_below (ar_draw ar) p then Ok (mkGen true false None false None None)
  else
    match nth_error empties (Nat.modulo (ar_choice ar) (List.length empties)) with
    | None => Err IndexError                (* random.choice([]) *)
    | Some q => Ok (mkGen false false (Some q) false
                     (Some (str "chosen at random from " ++ str_int (Z.of_nat (List.length empties)) ++ str " choices")) None)
    end.

(** The Gtp_state and the Player. *)
Record program : Type := mkProgram { p_game : gstate; p_resign : Z * nat }.

(** gtp_stateful_player:48-49, 95-99.  (Making the board can't fail.) *)
Definition new_program : res program :=
  do g <- new_state (Some [9; 13; 19]);
  Ok (mkProgram g (1, 1%nat)).

Definition env_of (ar : around) (p : Z * nat) : surroundings := mkEnv (ar_pick ar) (random_genmove ar p) (ar_files ar).

Definition state_handler (ar : around) (c : GtpStateModel.command) : handler program :=
  User (fun s args =>
    let (g, r) := handle (env_of ar (p_resign s)) c (p_game s) args in (mkProgram g (p_resign s), r)).
Definition savesgf_handler (ar : around) : handler program :=
  User (fun s args =>
    let '((g, r), _) := handle_savesgf (ar_version ar) (ar_today ar) (ar_save ar) (p_game s) args in (mkProgram g (p_resign s), r)).

(** gtp_stateful_player:76-86. *)
Definition handle_resign_p (s : program) (args : list bytes) : program * gres (option bytes) :=
  match args with
  | [] => (s, report_bad_arguments)
  | a :: _ =>
      match interpret_float a with
      | GOk f => (mkProgram (p_game s) f, GOk None)
      | GError m => (s, GError m)
      | GFatal m => (s, GFatal m) | GQuit m => (s, GQuit m) | GRaise m => (s, GRaise m)   (* never happen *)
      end
  end.
Definition constant_handler (t : bytes) : handler program := User (fun s _ => (s, GOk (Some t))).

(** gtp_states.py:576-592 [get_handlers]: the commands (no time commands). *)
Definition state_commands : list GtpStateModel.command :=
  [Boardsize; Clear_board; Komi; Fixed_handicap; Set_free_handicap; Place_free_handicap; Play; Genmove; Genmove_ex;
   Reg_genmove; Undo; Showboard; Loadsgf; Explain_last_move].

(** gtp_stateful_player:88-103 [get_handlers], [make_engine]. *)
Definition all_handlers (ar : around) : list (bytes * handler program) :=
  map (fun c => (command_name c, state_handler ar c)) state_commands ++
  [(str "gomill-savesgf", savesgf_handler ar);
   (str "name", constant_handler (str "GTP stateful player"));
   (str "version", constant_handler []);
   (str "gomill-resign_p", User handle_resign_p)].
Definition stateful_engine (ar : around) : engine program :=
  fold_left (fun e c => add_command e (fst c) (snd c)) (all_handlers ar) (add_protocol_commands new_engine).

(** One command: the program afterwards, and the response (is it an error, its text, does the session end). *)
Definition obey (ar : around) (s : program) (name : bytes) (args : list bytes) : program * (bool * bytes * bool) :=
  run_command (stateful_engine ar) s name args.

(** gtp_stateful_player:105-111 and gtp_engine.py:428-462: a session, command by command: the program
    after it, and the responses. *)
Fixpoint obey_all (s : program) (cmds : list (around * bytes * list bytes)) : program * list (bool * bytes * bool) :=
  match cmds with
  | [] => (s, [])
  | (ar, name, args) :: rest =>
      let '(s', r) := obey ar s name args in
      if snd r then (s', [r]) else let (s'', rs) := obey_all s' rest in (s'', r :: rs)
  end.
