(** Model of gomill/sgf_moves.py, and of the game construction calls it is used with. *)
From Verif Require Import Base Bytes PyStr Dict BoardModel SgfGrammarModel CommonModel SgfPropsModel SgfTreeModel.

Definition nonempty {A} (l : list A) : bool := match l with [] => false | _ => true end.

(** sgf_moves.py:51-58: the loop over the nodes. *)
Fixpoint collect_moves (w : world) (size : Z) (nodes : list nat) : res (list (colour * gmove)) :=
  match nodes with
  | [] => Ok []
  | n :: rest =>
      if has_setup_stones w n then Err ValueError
      else
        do r <- get_raw_move w n;
        match r with
        | None => collect_moves w size rest
        | Some (c, raw) =>
            do m <- interpret_go_point raw size;
            do l <- collect_moves w size rest;
            Ok ((c, m) :: l)
        end
  end.

(** sgf_moves.py:39-58: the rest of [get_setup_and_moves], once there is a board. *)
Definition setup_then_moves (pick : nat -> nat) (w : world) (g : game) (b : board)
  : board * res (list (colour * gmove)) :=
  let root := g_root g in
  match get_setup_stones w root with
  | Err e => (b, Err e)
  | Ok (ab, aw, ae) =>
      match main_line (List.length (w_nodes w)) w root with
      | Err e => (b, Err e)
      | Ok nodes =>
          if nonempty ab || nonempty aw then
            match apply_setup pick b ab aw ae with
            | (b1, Err e) => (b1, Err e)
            | (b1, Ok false) => (b1, Err ValueError)
            | (b1, Ok true) =>
                match get_raw_move w root with
                | Err e => (b1, Err e)
                | Ok (Some _) => (b1, Err ValueError)
                | Ok None => (b1, collect_moves w (g_size g) (tl nodes))
                end
            end
          else (b, collect_moves w (g_size g) nodes)
      end
  end.

(** sgf_moves.py:7-58 [get_setup_and_moves].  The first component is the board object after
    the call: the one supplied, or the one made (None if it could not be made).  The nodes
    are those of get_main_sequence (for a game loaded from text the code uses an iterator
    over the same nodes). *)
Definition get_setup_and_moves (pick : nat -> nat) (w : world) (g : game) (supplied : option board)
  : option board * res (list (colour * gmove)) :=
  let size := g_size g in
  match supplied with
  | None =>
      match new_board size with
      | Err e => (None, Err e)
      | Ok b => let (b', r) := setup_then_moves pick w g b in (Some b', r)
      end
  | Some b =>
      if negb (side b =? size) then (Some b, Err ValueError)
      else if negb (is_empty b) then (Some b, Err ValueError)
      else let (b', r) := setup_then_moves pick w g b in (Some b', r)
  end.

(** The stones of one colour, as [stones[colour]] in sgf_moves.py:69-71. *)
Definition stones_of (c : colour) (b : board) : list point :=
  flat_map (fun cp => if colour_eqb (fst cp) c then [snd cp] else []) (list_occupied_points b).

(** sgf_moves.py:60-72 [set_initial_position]. *)
Definition set_initial_position (w : world) (g : game) (b : board) : outcome :=
  set_setup_stones w (g_root g) (stones_of Black b) (stones_of White b) [].

(** sgf_moves.py:74-99 [indicate_first_player]. *)
Definition indicate_first_player (w : world) (g : game) : outcome :=
  let root := g_root g in
  match node_at w root with
  | None => no_object w
  | Some x =>
      match t_kids x with
      | [] => raise w IndexError
      | c :: _ =>
          match get_move w c with
          | Err e => raise w e
          | Ok None => done w
          | Ok (Some (first_player, _)) =>
              let has_handicap := has_property w root (str "HA") in
              let specify_pl :=
                if has_property w root (str "AW") then true
                else if has_property w root (str "AB") && negb has_handicap then true
                else if negb has_handicap && colour_eqb first_player White then true
                else if has_handicap && colour_eqb first_player Black then true
                else false in
              if specify_pl then set_prop w root (str "PL") (VColour first_player) else done w
          end
      end
  end.

(** sgf.py:637-642 [get_last_node], 710-716 [extend_main_sequence]; the new node's address
    is the next free one. *)
Fixpoint last_node (fuel : nat) (w : world) (n : nat) : res nat :=
  match node_at w n with
  | None => Err AttributeError
  | Some x =>
      match t_kids x with
      | [] => Ok n
      | c :: _ => match fuel with O => Err OutOfFuel | S f => last_node f w c end
      end
  end.

Definition extend_main_sequence (w : world) (g : game) : outcome :=
  match last_node (List.length (w_nodes w)) w (g_root g) with
  | Err e => raise w e
  | Ok n => new_child w n None
  end.

(** A client writing a game record: for each move, [extend_main_sequence().set_move(c, m)]. *)
Fixpoint record_moves (w : world) (g : game) (ms : list (colour * gmove)) : outcome :=
  match ms with
  | [] => done w
  | (c, m) :: rest =>
      then_do (extend_main_sequence w g) (fun w1 =>
      then_do (set_move w1 (List.length (w_nodes w)) c m) (fun w2 =>
      record_moves w2 g rest))
  end.
