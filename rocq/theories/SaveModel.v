(** Model of gomill/gtp_states.py:528-573: the gomill-savesgf command. *)
From Verif Require Import Base Bytes PyStr Dict BoardModel CommonModel SgfGrammarModel SgfPropsModel SgfTreeModel SgfMovesModel
  GameplayModel GameSgfModel GtpModel GtpStateModel.

(** [s.split("=", 1)]; None unless that gives two parts. *)
Fixpoint split_equals (s : bytes) : option (bytes * bytes) :=
  match s with
  | [] => None
  | c :: r =>
      if ceqb c "="%char then Some ([], r)
      else match split_equals r with Some (a, b) => Some (c :: a, b) | None => None end
  end.

(** [s.isalpha()] (Python's default locale). *)
Definition is_alpha (s : bytes) : bool := match s with [] => false | _ => forallb is_letter s end.

(** [s.replace(ab, r)] for two characters [a] and [b]: the occurrences from the left. *)
Fixpoint replace_pair (a b : ascii) (r : bytes) (s : bytes) : bytes :=
  match s with
  | [] => []
  | x :: t =>
      match t with
      | [] => [x]
      | y :: rest => if ceqb x a && ceqb y b then r ++ replace_pair a b r rest else x :: replace_pair a b r t
      end
  end.

(** gtp_states.py:556-562: one argument; None: an exception, reported as "invalid arguments". *)
Definition read_option (arg : bytes) : option (bytes * bytes) :=
  match split_equals arg with
  | Some (identifier, value) =>
      if is_alpha identifier then
        Some (map upper_char identifier,
              replace_pair char_bs char_bs [char_bs] (replace_pair char_bs "_"%char [char_sp] value))
      else None
  | None => None
  end.

(** gtp_states.py:555-565: the loop over the arguments. *)
Fixpoint set_options (w : world) (root : nat) (args : list bytes) : world * gres unit :=
  match args with
  | [] => (w, GOk tt)
  | a :: rest =>
      match read_option a with
      | None => (w, report_bad_arguments)
      | Some (identifier, value) =>
          match set_raw w root identifier (escape_text value) with
          | (w1, Ok _) => set_options w1 root rest
          | (w1, Err e) => (w1, uncaught e)
          end
      end
  end.

(** An exception that isn't handled. *)
Definition go_do (o : outcome) (f : world -> gres bytes) : gres bytes :=
  match o with (w, Ok _) => f w | (_, Err e) => uncaught e end.

(** gtp_states.py:546-572: what is written.  [version] is [gomill.__version__], [today] the date in
    the form of sgf.py:809.  The loop over the history is the one of gameplay.py:843-847. *)
Definition saved_text (version today : bytes) (st : gstate) (args : list bytes) : gres bytes :=
  let g := new_sgf (st_size st) empty_world in
  let root := g_root g in
  go_do (new_game empty_world (st_size st) UTF_8) (fun w1 =>
  go_do (set_prop w1 root (str "KM") (komi_value (st_komi st))) (fun w2 =>
  go_do (set_prop w2 root (str "AP") (VPair (str "gomill") version)) (fun w3 =>
  go_do (set_prop w3 root (str "DT") (VText today)) (fun w4 =>
  go_do (set_opt w4 root (str "HA") (option_map VInt (st_handicap st))) (fun w5 =>
  let (w6, r) := set_options w5 root args in
  gbind r (fun _ =>
  go_do (set_initial_position w6 g (st_base st)) (fun w7 =>
  go_do (record_game w7 g (map (fun h => (h_colour h, h_move h, h_comments h)) (st_history st))) (fun w8 =>
  go_do (indicate_first_player w8 g) (fun w9 =>
  match serialise_game w9 g (Some 79) with Ok text => GOk text | Err e => uncaught e end))))))))).

(** gtp_states.py:528-573 [handle_savesgf].  [save]: the text of the EnvironmentError that
    [_save_file] raises, if it does.  The state doesn't change; the second result is what was
    written. *)
Definition handle_savesgf (version today : bytes) (save : bytes -> option bytes) (st : gstate) (args : list bytes)
  : handled * option (bytes * bytes) :=
  match args with
  | [] => ((st, report_bad_arguments), None)
  | pathname :: options =>
      match saved_text version today st options with
      | GOk text =>
          match save pathname with
          | None => ((st, GOk None), Some (pathname, text))
          | Some m => ((st, GError (str "error writing file: " ++ m)), None)
          end
      | GError m => ((st, GError m), None)
      | GFatal m => ((st, GFatal m), None)
      | GQuit m => ((st, GQuit m), None)
      | GRaise m => ((st, GRaise m), None)
      end
  end.
