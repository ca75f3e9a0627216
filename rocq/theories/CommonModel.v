(** Model of gomill/common.py, gomill/handicap_layout.py and gomill/ascii_boards.py. *)
From Verif Require Import Base Bytes PyStr BoardModel.

(** common.py:37 [column_letters]. *)
Definition column_letters : bytes := str "ABCDEFGHJKLMNOPQRSTUVWXYZ".

(** A GTP move: a point, or [None] for a pass. *)
Definition gmove := option point.

(** [column_letters[i]] (negative indexes count from the end in Python; no caller
    passes one). *)
Definition column_letter (i : Z) : res ascii :=
  match nth_error column_letters (Z.to_nat i) with
  | Some c => Ok c
  | None => Err IndexError
  end.

(** common.py:39-52 [format_vertex]. *)
Definition format_vertex (m : gmove) : res bytes :=
  match m with
  | None => Ok (str "pass")
  | Some (row, col) =>
      if negb ((0 <=? row) && (row <? 25)) || negb ((0 <=? col) && (col <? 25))
      then Err ValueError
      else do l <- column_letter col; Ok (l :: str_int (row + 1))
  end.

(** [map(f, l)] for a function that may raise. *)
Fixpoint mapm {A B} (f : A -> res B) (l : list A) : res (list B) :=
  match l with
  | [] => Ok []
  | x :: r => do y <- f x; do ys <- mapm f r; Ok (y :: ys)
  end.

(** common.py:54-56 [format_vertex_list]. *)
Definition format_vertex_list (ms : list gmove) : res bytes :=
  do l <- mapm format_vertex ms; Ok (join (str ",") l).

(** common.py:58-92 [move_from_vertex] on a byte string. *)
Definition move_from_vertex (vertex : bytes) (board_size : Z) : res gmove :=
  if negb ((0 <? board_size) && (board_size <=? 25)) then Err ValueError
  else
    let s := map lower_char vertex in
    if bytes_eqb s (str "pass") then Ok None
    else
      match s with
      | [] => Err ValueError                                   (* IndexError caught *)
      | col_c :: rest =>
          if negb ((97 <=? ord col_c) && (ord col_c <=? 122)) || ceqb col_c "i"%char
          then Err ValueError
          else
            let col := if ord "i"%char <? ord col_c then ord col_c - ord "b"%char
                       else ord col_c - ord "a"%char in
            match py_int rest with
            | Err _ => Err ValueError
            | Ok n =>
                let row := n - 1 in
                if row <? 0 then Err ValueError
                else if negb ((col <? board_size) && (row <? board_size)) then Err ValueError
                else Ok (Some (row, col))
            end
      end.

(** * handicap_layout.py *)

(** handicap_layout.py:7-9. *)
Definition max_free_handicap (board_size : Z) : Z := board_size * board_size - 1.

(** handicap_layout.py:11-20. *)
Definition max_fixed_handicap (board_size : Z) : res Z :=
  if board_size <=? 7 then Ok 0
  else if 25 <? board_size then Err ValueError
  else if (board_size mod 2 =? 0) || (board_size =? 7) then Ok 4
  else Ok 9.

(** handicap_layout.py:22-31; the digits are 0, 1, 2. *)
Inductive hpos : Type := P0 | P1 | P2.
Definition handicap_pattern : list (list (hpos * hpos)) :=
  [ [(P0, P0); (P2, P2)];
    [(P0, P0); (P2, P2); (P2, P0)];
    [(P0, P0); (P2, P2); (P2, P0); (P0, P2)];
    [(P0, P0); (P2, P2); (P2, P0); (P0, P2); (P1, P1)];
    [(P0, P0); (P2, P2); (P2, P0); (P0, P2); (P1, P0); (P1, P2)];
    [(P0, P0); (P2, P2); (P2, P0); (P0, P2); (P1, P0); (P1, P2); (P1, P1)];
    [(P0, P0); (P2, P2); (P2, P0); (P0, P2); (P1, P0); (P1, P2); (P0, P1); (P2, P1)];
    [(P0, P0); (P2, P2); (P2, P0); (P0, P2); (P1, P0); (P1, P2); (P0, P1); (P2, P1); (P1, P1)] ].

(** handicap_layout.py:33-54 [handicap_points]. *)
Definition handicap_points (n board_size : Z) : res (list point) :=
  do m <- max_fixed_handicap board_size;
  if m <? n then Err ValueError
  else if n <? 2 then Err ValueError
  else
    let altitude := if board_size <? 13 then 2 else 3 in
    let pos p := match p with
                 | P0 => altitude
                 | P1 => (board_size - 1) / 2
                 | P2 => board_size - altitude - 1
                 end in
    match nth_error handicap_pattern (Z.to_nat (n - 2)) with
    | None => Err IndexError
    | Some pat => Ok (map (fun s => (pos (fst s), pos (snd s))) pat)
    end.

(** * ascii_boards.py *)

(** ascii_boards.py:31-35, 45 [_point_strings]. *)
Definition point_string (c : cell) : bytes :=
  match c with
  | None => str " ."
  | Some Black => str " #"
  | Some White => str " o"
  end.

(** [range(size-1, -1, -1)]. *)
Definition down_range (size : Z) : list Z := rev (range size).

(** ascii_boards.py:6-29 [render_grid]. *)
Definition render_grid (fmt : Z -> Z -> res bytes) (size : Z) : res (list bytes) :=
  do header <- mapm column_letter (range size);
  let rowstart z := if 9 <? size then pad_left 2 (str_int z) ++ str " " else str_int z ++ str " " in
  let padding := if 9 <? size then str " " else [] in
  do rows <- mapm (fun row =>
       do pts <- mapm (fmt row) (range size);
       Ok (rowstart (row + 1) ++ join (str " ") pts)) (down_range size);
  Ok (rows ++ [padding ++ str "   " ++ join (str "  ") (map (fun c => [c]) header)]).

(** ascii_boards.py:35-43 [render_board]. *)
Definition render_board (b : board) : res bytes :=
  do lines <- render_grid (fun row col => do c <- get b row col; Ok (point_string c)) (side b);
  Ok (join [char_lf] lines).

(** [l[i]] for a Python list or string and an index known to be non-negative. *)
Definition py_nth {A} (l : list A) (i : Z) : res A :=
  match nth_error l (Z.to_nat i) with Some x => Ok x | None => Err IndexError end.

(** ascii_boards.py:70 [colours]. *)
Definition diagram_colour (c : ascii) : res cell :=
  if ceqb c "#"%char then Ok (Some Black)
  else if ceqb c "o"%char then Ok (Some White)
  else if ceqb c "."%char then Ok None
  else Err KeyError.

(** ascii_boards.py:76-79: the loop over the board points. *)
Fixpoint diagram_loop (pick : nat -> nat) (lines : list bytes) (size off : Z) (pts : list point)
  (b : board) : res board :=
  match pts with
  | [] => Ok b
  | (row, col) :: rest =>
      do line <- py_nth lines (size - row - 1);
      do ch <- py_nth line (3 * (col + 1) + off);
      do colour <- diagram_colour ch;
      match colour with
      | None => diagram_loop pick lines size off rest b
      | Some c =>
          match play pick b row col c with
          | (b', Ok _) => diagram_loop pick lines size off rest b'
          | (_, Err e) => Err e
          end
      end
  end.

(** ascii_boards.py:47-82 [interpret_diagram]; the optional argument is [None] or the
    board given. *)
Definition interpret_diagram (pick : nat -> nat) (diagram : bytes) (size : Z) (given : option board)
  : res board :=
  do b <- match given with
          | None => new_board size
          | Some b => if negb (side b =? size) then Err ValueError
                      else if negb (is_empty b) then Err ValueError else Ok b
          end;
  let lines := split_on char_lf (strip diagram) in
  let off := if 9 <? size then 1 else 0 in
  match diagram_loop pick lines size off (board_points (side b)) b with
  | Ok b' => Ok b'
  | Err _ => Err ValueError
  end.
