(** Model of gomill/boards.py (class Board), function by function.

    The Board object is the record [board]; methods that mutate it return the
    new record.  Python [set]s of points are duplicate-free lists; the order in
    which [set.pop()] delivers elements is unspecified in Python, so everything
    that runs the flood fill takes a parameter [pick : nat -> nat] choosing which
    element is popped at each iteration. *)
From Verif Require Import Base.

(** boards.py:31-52.  [side], [board] (here [grid], a list of rows) and
    [_is_empty] (here [empty_flag]).  [board_points] is computed by
    [board_points] below, as it only depends on [side]. *)
Record board : Type := mkBoard {
  side : Z;
  grid : list (list cell);
  empty_flag : bool
}.

(** [range(n)] as a list of integers. *)
Definition range (n : Z) : list Z := map Z.of_nat (seq 0 (Z.to_nat n)).

(** boards.py:46-47 [board_points]: row-major list of all points. *)
Definition board_points (s : Z) : list point :=
  flat_map (fun r => map (fun c => (r, c)) (range s)) (range s).

(** boards.py:42-52 [Board.__init__]. *)
Definition new_board (s : Z) : res board :=
  if s <? 2 then Err ValueError
  else Ok (mkBoard s (repeat (repeat None (Z.to_nat s)) (Z.to_nat s)) true).

(** boards.py:54-59 [Board.copy] (values are immutable in the model, so an
    independent copy is rebuilt row by row as the code does). *)
Definition copy (b : board) : res board :=
  do b0 <- new_board (side b);
  Ok (mkBoard (side b0) (map (fun i => nth (Z.to_nat i) (grid b) []) (range (side b)))
              (empty_flag b)).

(** [self.board[r][c]] for coordinates already known to be on the board. *)
Definition cell_at (g : list (list cell)) (p : point) : cell :=
  nth (Z.to_nat (snd p)) (nth (Z.to_nat (fst p)) g []) None.

(** List element assignment [l[i] = v] (no effect out of range; all uses below
    are guarded by the same checks as in the code). *)
Fixpoint set_nth {A} (n : nat) (v : A) (l : list A) : list A :=
  match l, n with
  | [], _ => []
  | _ :: t, O => v :: t
  | h :: t, S n' => h :: set_nth n' v t
  end.

(** [self.board[r][c] = v]. *)
Definition set_cell (g : list (list cell)) (p : point) (v : cell) : list (list cell) :=
  set_nth (Z.to_nat (fst p))
          (set_nth (Z.to_nat (snd p)) v (nth (Z.to_nat (fst p)) g [])) g.

(** The test [(0 <= r1 < self.side) and (0 <= c1 < self.side)]. *)
Definition on_boardb (s : Z) (p : point) : bool :=
  (0 <=? fst p) && (fst p <? s) && (0 <=? snd p) && (snd p <? s).

(** boards.py:70, 95: the four neighbours, in the code's order. *)
Definition neighbours (p : point) : list point :=
  let (r, c) := p in [(r - 1, c); (r + 1, c); (r, c - 1); (r, c + 1)].

(** [to_handle.add(p)]. *)
Definition set_add (p : point) (l : list point) : list point :=
  if mem_point p l then l else l ++ [p].

(** The index of the element popped: any function, reduced to a valid index. *)
Definition pop_index (pick : nat -> nat) (fuel : nat) (l : list point) : nat :=
  Nat.modulo (pick fuel) (List.length l).

(** [l] without its [n]th element. *)
Fixpoint remove_nth {A} (n : nat) (l : list A) : list A :=
  match l, n with
  | [], _ => []
  | _ :: t, O => t
  | h :: t, S n' => h :: remove_nth n' t
  end.

(** Body of the inner [for neighbour in ...] loop, common to
    [_make_group] (boards.py:70-79) and [_make_empty_region] (95-103): a neighbour
    holding [target] is followed, any other content is passed to [visit]. *)
Definition scan_neighbour {A} (b : board) (target : cell) (visit : cell -> A -> A)
  (points : list point) (st : list point * A) (q : point) : list point * A :=
  let (todo, acc) := st in
  if negb (on_boardb (side b) q) then (todo, acc)
  else
    let nc := cell_at (grid b) q in
    if cell_eqb nc target then
      (if mem_point q points then (todo, acc) else (set_add q todo, acc))
    else (todo, visit nc acc).

(** The [while to_handle] loop of boards.py:66-79 and 91-103. *)
Fixpoint flood {A} (pick : nat -> nat) (fuel : nat) (b : board) (target : cell)
  (visit : cell -> A -> A) (points todo : list point) (acc : A)
  : res (list point * A) :=
  match todo with
  | [] => Ok (points, acc)
  | p0 :: _ =>
      match fuel with
      | O => Err OutOfFuel
      | S fuel' =>
          let i := pop_index pick fuel todo in
          let p := nth i todo p0 in
          let todo' := remove_nth i todo in
          let points' := set_add p points in
          let (todo'', acc') :=
            fold_left (scan_neighbour b target visit points') (neighbours p)
                      (todo', acc) in
          flood pick fuel' b target visit points' todo'' acc'
      end
  end.

Definition flood_fuel (b : board) : nat := List.length (board_points (side b)).

(** boards.py:7-17 class _Group. *)
Record group : Type := mkGroup {
  g_colour : colour;
  g_points : list point;
  g_surrounded : bool
}.

(** boards.py:61-84 [_make_group]. *)
Definition make_group (pick : nat -> nat) (b : board) (p : point) (c : colour) : res group :=
  do (pts, surr) <- flood pick (flood_fuel b) b (Some c)
       (fun nc acc => match nc with None => false | Some _ => acc end)
       [] [p] true;
  Ok (mkGroup c pts surr).

(** boards.py:86-108 [_make_empty_region]: points and neighbouring colours
    (a set of colours, as a list). *)
Definition add_colour (c : colour) (l : list colour) : list colour :=
  if existsb (colour_eqb c) l then l else l ++ [c].

Definition make_empty_region (pick : nat -> nat) (b : board) (p : point)
  : res (list point * list colour) :=
  flood pick (flood_fuel b) b None
    (fun nc acc => match nc with None => acc | Some c => add_colour c acc end)
    [] [p] [].

(** boards.py:110-129 [_find_surrounded_groups]. *)
Fixpoint find_surrounded_loop (pick : nat -> nat) (b : board) (pts handled : list point)
  (surrounded : list group) : res (list group) :=
  match pts with
  | [] => Ok surrounded
  | p :: rest =>
      match cell_at (grid b) p with
      | None => find_surrounded_loop pick b rest handled surrounded
      | Some c =>
          if mem_point p handled then find_surrounded_loop pick b rest handled surrounded
          else
            do g <- make_group pick b p c;
            find_surrounded_loop pick b rest (handled ++ g_points g)
              (if g_surrounded g then surrounded ++ [g] else surrounded)
      end
  end.

Definition find_surrounded_groups (pick : nat -> nat) (b : board) : res (list group) :=
  find_surrounded_loop pick b (board_points (side b)) [] [].

(** boards.py:131-133. *)
Definition is_empty (b : board) : bool := empty_flag b.

(** boards.py:135-145 [get]: negative coordinates are rejected explicitly, too
    large ones by Python's list indexing. *)
Definition get (b : board) (row col : Z) : res cell :=
  if (row <? 0) || (col <? 0) then Err IndexError
  else match nth_error (grid b) (Z.to_nat row) with
       | None => Err IndexError
       | Some rw => match nth_error rw (Z.to_nat col) with
                    | None => Err IndexError
                    | Some v => Ok v
                    end
       end.

(** boards.py:181-184: [for group in to_capture: for r, c in group.points: ...]. *)
Definition clear_points (g : list (list cell)) (pts : list point) : list (list cell) :=
  fold_left (fun g p => set_cell g p None) pts g.

Definition clear_groups (g : list (list cell)) (gs : list group) : list (list cell) :=
  fold_left (fun g gr => clear_points g (g_points gr)) gs g.

(** boards.py:147-185 [play].  The first component is the Board object after the
    call, also when the call raises; the second is the returned simple ko point
    or the exception. *)
Definition play (pick : nat -> nat) (b : board) (row col : Z) (c : colour)
  : board * res (option point) :=
  match get b row col with
  | Err e => (b, Err e)
  | Ok (Some _) => (b, Err ValueError)
  | Ok None =>
      let b1 := mkBoard (side b) (set_cell (grid b) (row, col) (Some c)) false in
      match find_surrounded_groups pick b1 with
      | Err e => (b1, Err e)
      | Ok [] => (b1, Ok None)
      | Ok [g] =>
          let flag := Nat.eqb (List.length (g_points g)) (Z.to_nat (side b * side b)) in
          (mkBoard (side b) (clear_groups (grid b1) [g]) flag, Ok None)
      | Ok surrounded =>
          let to_capture :=
            filter (fun g => colour_eqb (g_colour g) (opponent_of c)) surrounded in
          let ko :=
            match to_capture with
            | [g] =>
                match g_points g with
                | [kp] =>
                    let self_capture :=
                      filter (fun g => colour_eqb (g_colour g) c) surrounded in
                    match self_capture with
                    | [] => Err IndexError            (* self_capture[0] *)
                    | sg :: _ =>
                        if Nat.eqb (List.length (g_points sg)) 1 then Ok (Some kp)
                        else Ok None
                    end
                | _ => Ok None
                end
            | _ => Ok None
            end in
          match ko with
          | Err e => (b1, Err e)
          | Ok k => (mkBoard (side b) (clear_groups (grid b1) to_capture) false, Ok k)
          end
      end
  end.

(** boards.py:209-211: the range check of [apply_setup]. *)
Definition all_on_board (s : Z) (pts : list point) : bool := forallb (on_boardb s) pts.

(** boards.py:187-223 [apply_setup]; result as for [play]. *)
Definition apply_setup (pick : nat -> nat) (b : board)
  (black_points white_points empty_points : list point) : board * res bool :=
  if negb (all_on_board (side b) (black_points ++ white_points ++ empty_points))
  then (b, Err IndexError)
  else
    let g1 := fold_left (fun g p => set_cell g p (Some Black)) black_points (grid b) in
    let g2 := fold_left (fun g p => set_cell g p (Some White)) white_points g1 in
    let g3 := fold_left (fun g p => set_cell g p None) empty_points g2 in
    let b3 := mkBoard (side b) g3 (empty_flag b) in
    match find_surrounded_groups pick b3 with
    | Err e => (b3, Err e)
    | Ok captured =>
        let g4 := clear_groups g3 captured in
        let flag := forallb (fun p => match cell_at g4 p with None => true | Some _ => false end)
                            (board_points (side b)) in
        (mkBoard (side b) g4 flag,
         Ok (match captured with [] => true | _ :: _ => false end))
    end.

(** boards.py:225-236 [list_occupied_points]. *)
Definition list_occupied_points (b : board) : list (colour * point) :=
  flat_map (fun p => match cell_at (grid b) p with
                     | None => []
                     | Some c => [(c, p)]
                     end) (board_points (side b)).

(** boards.py:238-264 [area_score]; the dict [scores] is a pair of counters. *)
Fixpoint area_loop (pick : nat -> nat) (b : board) (pts handled : list point)
  (sb sw : Z) : res Z :=
  match pts with
  | [] => Ok (sb - sw)
  | p :: rest =>
      match cell_at (grid b) p with
      | Some Black => area_loop pick b rest handled (sb + 1) sw
      | Some White => area_loop pick b rest handled sb (sw + 1)
      | None =>
          if mem_point p handled then area_loop pick b rest handled sb sw
          else
            do (rpts, cols) <- make_empty_region pick b p;
            let size := Z.of_nat (List.length rpts) in
            area_loop pick b rest (handled ++ rpts)
              (if existsb (colour_eqb Black) cols then sb + size else sb)
              (if existsb (colour_eqb White) cols then sw + size else sw)
      end
  end.

Definition area_score (pick : nat -> nat) (b : board) : res Z :=
  area_loop pick b (board_points (side b)) [] 0 0.
