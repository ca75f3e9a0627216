(** What showing a position means (C75), apart from the code. *)
From Verif Require Import Base Bytes PyStr BoardModel BoardSpec CommonModel SgfGrammarModel SgfPropsModel SgfTreeModel SgfTreeSpec SgfMovesModel SgfMovesSpec SgfCharsetModel GtpStateSpec.

(** The diagram of a position: rows from the top, labelled, and the letters of the columns. *)
Definition point_sign (c : option colour) : string := match c with None => "." | Some Black => "#" | Some White => "o" end.
(** Numbers have two characters if the board has more than nine rows. *)
Definition row_label (size row : Z) : bytes := if (9 <? size) && (row <? 10) then str " " ++ str_int row else str_int row.
Definition diagram_row (size : Z) (p : position) (row : Z) : bytes :=
  row_label size (row + 1) ++ str "  " ++ join (str "  ") (map (fun col => str (point_sign (p (row, col)))) (range size)).
Definition letters : bytes := str "ABCDEFGHJKLMNOPQRSTUVWXYZ".
Definition diagram (size : Z) (p : position) : bytes :=
  join [char_lf] (map (diagram_row size p) (rev (range size)) ++
                  [(if 9 <? size then str "    " else str "   ") ++ join (str "  ") (map (fun c => [c]) (firstn (Z.to_nat size) letters))]).

(** The game in the file: its size, the setup, and the moves. *)
Definition game_in (reg : registry) (src : bytes) (size : Z) (setup : position) (ms : list (colour * gmove)) : Prop :=
  exists w g t ab aw ae, from_string reg empty_world src None = (w, Ok tt) /\ game_at w 0 = Some g /\ g_size g = size /\
    tree_of w (g_root g) t /\ readable w g t ab aw ae ms /\ setup = setup_position empty_position ab aw ae.
(** The moves before the given one (all of them if none is given). *)
Definition wanted (move_number : option Z) (ms : list (colour * gmove)) : list (colour * gmove) :=
  match move_number with None => ms | Some n => firstn (Z.to_nat (n - 1)) ms end.
