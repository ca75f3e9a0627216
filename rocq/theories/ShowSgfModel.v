(** Model of gomill_examples/show_sgf.py: showing the position from an SGF file. *)
From Verif Require Import Base Bytes PyStr Dict BoardModel CommonModel SgfGrammarModel SgfPropsModel SgfTreeModel SgfMovesModel SgfCharsetModel.

(** What is printed on standard output (exit status 0), or why nothing is (exit status 1, with
    a message on standard error, :67-69). *)
Inductive reason : Type := BadFile | BadGame | IllegalMove | OtherReason (e : exn).
Inductive showing : Type := Shown (printed : bytes) | NotShown (r : reason).

(** :31-39: making the plays. *)
Fixpoint make_plays (pick : nat -> nat) (b : board) (plays : list (colour * gmove)) : res board :=
  match plays with
  | [] => Ok b
  | (_, None) :: rest => make_plays pick b rest
  | (colour, Some (row, col)) :: rest =>
      match play pick b row col colour with
      | (_, Err e) => Err e
      | (b', Ok _) => make_plays pick b' rest
      end
  end.

(** :14-42 [show_sgf_file], given the contents of the file.  (Subclasses of ValueError are
    ValueErrors in the model; the message of a ValueError from get_setup_and_moves is left out.)
    [pick] is the order of Python's sets (see BoardModel.v), [reg] the known encodings. *)
Definition show_sgf_file (reg : registry) (pick : nat -> nat) (sgf_src : bytes) (move_number : option Z) : showing :=
  match from_string reg empty_world sgf_src None with
  | (_, Err ValueError) => NotShown BadFile
  | (_, Err e) => NotShown (OtherReason e)
  | (w, Ok _) =>
      match game_at w 0 with
      | None => NotShown (OtherReason AttributeError)
      | Some g =>
          match get_setup_and_moves pick w g None with
          | (_, Err ValueError) => NotShown BadGame
          | (_, Err e) => NotShown (OtherReason e)
          | (None, Ok _) => NotShown (OtherReason AttributeError)
          | (Some b, Ok plays) =>
              let plays := match move_number with None => plays | Some n => firstn (Z.to_nat (Z.max 0 (n - 1))) plays end in
              match make_plays pick b plays with
              | Err ValueError => NotShown IllegalMove
              | Err e => NotShown (OtherReason e)
              | Ok b' => match render_board b' with
                         | Ok s => Shown (s ++ [char_lf; char_lf])
                         | Err e => NotShown (OtherReason e)
                         end
              end
          end
      end
  end.

(** :49-62: the arguments of the command ([None]: it stops with a usage message, exit
    status 2). *)
Definition arguments (args : list bytes) : option (bytes * option Z) :=
  match args with
  | [path] => Some (path, None)
  | [path; n] => match py_int n with Ok z => Some (path, Some z) | Err _ => None end
  | _ => None
  end.
