(** Model of gomill_examples/split_sgf_collection.py: splitting an SGF collection into files.
    Simplified: the directory is not modelled ([opens] says which files can be opened); nor
    is the parsing of the command line.  Each game is made in a world of its own (the
    script keeps no reference to the previous one). *)
From Verif Require Import Base Bytes PyStr Dict SgfGrammarModel SgfTreeConvModel SgfPropsModel
  SgfTreeModel SgfCharsetModel RingFilesModel.

(** sgf.py:528-568 [from_coarse_game_tree], with no override, and with the encoding looked
    up (as in [SgfCharsetModel.from_string]). *)
Definition from_coarse (reg : registry) (w : world) (t : ctree) : outcome :=
  match c_sequence t with
  | [] => raise w IndexError
  | m :: _ =>
      match (do name <- declared_charset m None; presenter_encoding reg name) with
      | Ok e => load_game w t e false
      | Err ex =>
          match (match dget (str "SZ") m with
                 | None => Ok 19
                 | Some [] => Err IndexError
                 | Some (v :: _) => py_int v
                 end) with
          | Err ex' => raise w ex'
          | Ok size => if negb ((1 <=? size) && (size <=? 26)) then raise w ValueError else raise w ex
          end
      end
  end.

(** What becomes of one game.  The file is opened before the game is serialised, so a
    failure there leaves an empty file. *)
Inductive written : Type :=
| NoFile (e : exn)
| EmptyFile
| File (text : bytes).

(** split_sgf_collection.py:25-31, the body of the loop but for the opening of the file. *)
Definition split_game (reg : registry) (note : bytes) (t : ctree) : written :=
  match from_coarse reg empty_world t with
  | (_, Err e) => NoFile e
  | (w, Ok _) =>
      match game_at w 0 with
      | None => NoFile AttributeError
      | Some g =>
          match add_comment_text w (g_root g) note with
          | (_, Err e) => NoFile e
          | (w2, Ok _) => match save_game reg w2 g (Some 79) with
                          | Saved text => File text
                          | _ => EmptyFile
                          end
          end
      end
  end.

(** split_sgf_collection.py:26-27. *)
Definition split_note (basename : bytes) (number : Z) : bytes :=
  str "Split from " ++ basename ++ str " (game " ++ str_int number ++ str ")".

(** split_sgf_collection.py:28. *)
Definition split_pathname (dirname root ext : bytes) (number : Z) : bytes :=
  join_path dirname (root ++ str "_" ++ str_int number ++ ext).

(** How the script ends: it says nothing, or prints the message of an exception. *)
Inductive ending : Type :=
| Completed
| BadCollection
| Stopped.

(** split_sgf_collection.py:24-31, the loop: the files written, in order. *)
Fixpoint split_games (reg : registry) (opens : bytes -> bool) (dirname basename root ext : bytes)
    (number : Z) (games : list ctree) : list (bytes * bytes) * ending :=
  match games with
  | [] => ([], Completed)
  | t :: rest =>
      let path := split_pathname dirname root ext number in
      match split_game reg (split_note basename number) t with
      | NoFile _ => ([], Stopped)
      | EmptyFile => if opens path then ([(path, [])], Stopped) else ([], Stopped)
      | File text =>
          if opens path then
            let '(files, e) := split_games reg opens dirname basename root ext (number + 1) rest in
            ((path, text) :: files, e)
          else ([], Stopped)
      end
  end.

(** split_sgf_collection.py:14-31 [split_sgf_collection], given what's in the file. *)
Definition split_sgf_collection (reg : registry) (opens : bytes -> bool) (pathname src : bytes)
  : list (bytes * bytes) * ending :=
  let '(dirname, basename) := os_split pathname in
  let '(root, ext) := splitext basename in
  match parse_sgf_collection src with
  | Err _ => ([], BadCollection)
  | Ok games => split_games reg opens dirname basename root ext 1 games
  end.
