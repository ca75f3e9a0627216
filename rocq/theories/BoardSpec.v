(** The rules of Go, independent of the board implementation.

    A position is a function from points to contents; only points on an [s] by [s]
    board matter.  The rules are stated in the usual "Tromp-Taylor" style. *)
From Verif Require Import Base BoardModel.

Definition position := point -> cell.

Definition on_board (s : Z) (p : point) : Prop :=
  0 <= fst p < s /\ 0 <= snd p < s.

Definition adj (p q : point) : Prop :=
  Z.abs (fst p - fst q) + Z.abs (snd p - snd q) = 1.

(** [q] is reached from [p] by adjacent board points all holding what [p] holds. *)
Inductive connected (s : Z) (pos : position) (p : point) : point -> Prop :=
| conn_refl : connected s pos p p
| conn_step q r : connected s pos p q -> adj q r -> on_board s r ->
                  pos r = pos p -> connected s pos p r.

(** The group of [p] has a liberty: an empty point next to one of its stones. *)
Definition has_liberty (s : Z) (pos : position) (p : point) : Prop :=
  exists q l, connected s pos p q /\ adj q l /\ on_board s l /\ pos l = None.

Definition legal (s : Z) (pos : position) : Prop :=
  forall p, on_board s p -> pos p <> None -> has_liberty s pos p.

(** Put content [v] at [p]. *)
Definition place (pos : position) (p : point) (v : cell) : position :=
  fun q => if point_eqb p q then v else pos q.

(** [pos'] is [pos] after removing every [c] stone whose group has no liberty. *)
Definition clears (s : Z) (pos : position) (c : colour) (pos' : position) : Prop :=
  forall p, on_board s p ->
    (pos p = Some c /\ ~ has_liberty s pos p -> pos' p = None) /\
    (~ (pos p = Some c /\ ~ has_liberty s pos p) -> pos' p = pos p).

(** A move: place the stone, clear the opponent, then clear oneself. *)
Definition go_move (s : Z) (pos : position) (p : point) (c : colour) (pos' : position) : Prop :=
  exists pos2,
    clears s (place pos p (Some c)) (opponent_of c) pos2 /\ clears s pos2 c pos'.

(** The position shown by a Board's public [get]. *)
Definition view (b : board) : position :=
  fun p => match get b (fst p) (snd p) with Ok v => v | Err _ => None end.

(** What a board shows outside itself is nothing; equality of positions on the board. *)
Definition same_on (s : Z) (pos pos' : position) : Prop :=
  forall p, on_board s p -> pos p = pos' p.

(** A simple ko: playing [c] at [p] captured exactly the one stone at [k], and
    the stone at [p] is now alone with [k] as its only liberty. *)
Definition simple_ko (s : Z) (pos : position) (p : point) (c : colour) (pos' : position)
  (k : point) : Prop :=
  on_board s k /\ pos k = Some (opponent_of c) /\ pos' k = None /\
  pos' p = Some c /\ adj p k /\
  (forall q, on_board s q -> q <> k -> q <> p -> pos' q = pos q) /\
  (forall q, on_board s q -> adj p q -> q <> k -> pos' q = Some (opponent_of c)).

(** The position specified by three lists of setup points; later lists win. *)
Definition setup_position (pos : position) (bl wh em : list point) : position :=
  fun p => if mem_point p em then None
           else if mem_point p wh then Some White
           else if mem_point p bl then Some Black
           else pos p.

(** Remove all stones of either colour whose groups have no liberty. *)
Definition clears_all (s : Z) (pos pos' : position) : Prop :=
  forall p, on_board s p ->
    (pos p <> None /\ ~ has_liberty s pos p -> pos' p = None) /\
    (~ (pos p <> None /\ ~ has_liberty s pos p) -> pos' p = pos p).

(** Area scoring: a point counts for [c] if it holds a [c] stone, or is empty and
    connected through empty points to a point adjacent to a [c] stone. *)
Definition counts_for (s : Z) (pos : position) (c : colour) (p : point) : Prop :=
  pos p = Some c \/
  (pos p = None /\
   exists q r, connected s pos p q /\ adj q r /\ on_board s r /\ pos r = Some c).

(** [l] lists, without repetition, exactly the board points satisfying [P]. *)
Definition enumerates (s : Z) (P : point -> Prop) (l : list point) : Prop :=
  NoDup l /\ forall p, In p l <-> (on_board s p /\ P p).

Definition area_score_spec (s : Z) (pos : position) (score : Z) : Prop :=
  exists lb lw,
    enumerates s (counts_for s pos Black) lb /\
    enumerates s (counts_for s pos White) lw /\
    score = Z.of_nat (List.length lb) - Z.of_nat (List.length lw).

(** Calls on a Board; histories are lists of calls applied to a fresh board. *)
Inductive board_op : Type :=
| OpPlay (row col : Z) (c : colour)
| OpSetup (bl wh em : list point).

(** Effect of a call on the object, whether or not it raises. *)
Definition apply_op (pick : nat -> nat) (b : board) (o : board_op) : board :=
  match o with
  | OpPlay r c col => fst (play pick b r c col)
  | OpSetup bl wh em => fst (apply_setup pick b bl wh em)
  end.

(** Boards a program can hold: built by the constructor and then changed by any
    calls (each with its own pop order of Python's sets). *)
Inductive reachable (s : Z) : board -> Prop :=
| reach_new b : new_board s = Ok b -> reachable s b
| reach_op pick b o : reachable s b -> reachable s (apply_op pick b o).
