(** Shared vocabulary: Python exceptions as values, Go colours and points. *)
From Coq Require Export List Arith ZArith Lia Bool Ascii String.
Export ListNotations.
Open Scope Z_scope.
Open Scope list_scope.

(** Python exception classes that the modelled code can raise. [OutOfFuel] is
    not a Python exception: it marks a loop of the model that was cut short, and
    the theorems show it never happens. *)
Inductive exn : Type :=
| IndexError | ValueError | KeyError | AssertionError | TypeError
| OverflowError | AttributeError | OutOfFuel
(** gameplay.py:17 and 552; any other exception, from code outside the model. *)
| GameStateError | GameRunnerStateError | OtherError (n : nat).

Inductive res (A : Type) : Type :=
| Ok (a : A)
| Err (e : exn).
Arguments Ok {A} a.
Arguments Err {A} e.

Definition bind {A B} (m : res A) (f : A -> res B) : res B :=
  match m with Ok a => f a | Err e => Err e end.

Notation "'do' x <- m ; k" := (bind m (fun x => k))
  (at level 200, x pattern, m at level 100, k at level 200, right associativity).

Definition is_ok {A} (m : res A) : bool :=
  match m with Ok _ => true | Err _ => false end.

(** Exceptions have decidable equality (used by computations on results). *)
Definition exn_eqb (a b : exn) : bool :=
  match a, b with
  | IndexError, IndexError | ValueError, ValueError | KeyError, KeyError
  | AssertionError, AssertionError | TypeError, TypeError
  | OverflowError, OverflowError | AttributeError, AttributeError
  | OutOfFuel, OutOfFuel | GameStateError, GameStateError
  | GameRunnerStateError, GameRunnerStateError => true
  | OtherError m, OtherError n => Nat.eqb m n
  | _, _ => false
  end.

(** common.py:10-22 : colours are the strings 'b' and 'w'.  The model has only
    these two values (a caller passing anything else is outside the model). *)
Inductive colour : Type := Black | White.

Definition colour_eqb (a b : colour) : bool :=
  match a, b with Black, Black | White, White => true | _, _ => false end.

Lemma colour_eqb_spec a b : reflect (a = b) (colour_eqb a b).
Proof. destruct a, b; constructor; congruence. Qed.

(** common.py:12-24 [opponent_of] on the two valid colours. *)
Definition opponent_of (c : colour) : colour :=
  match c with Black => White | White => Black end.

Lemma opponent_involutive c : opponent_of (opponent_of c) = c.
Proof. destruct c; reflexivity. Qed.

Lemma opponent_neq c : opponent_of c <> c.
Proof. destruct c; discriminate. Qed.

(** The contents of a board point: a colour, or [None] if empty. *)
Definition cell := option colour.

Definition cell_eqb (a b : cell) : bool :=
  match a, b with
  | None, None => true
  | Some x, Some y => colour_eqb x y
  | _, _ => false
  end.

Lemma cell_eqb_spec a b : reflect (a = b) (cell_eqb a b).
Proof.
  destruct a as [x|], b as [y|]; simpl; try (constructor; congruence).
  destruct (colour_eqb_spec x y); constructor; congruence.
Qed.

(** A point is a pair (row, col) of Python integers. *)
Definition point := (Z * Z)%type.

Definition point_eqb (p q : point) : bool :=
  (fst p =? fst q) && (snd p =? snd q).

Lemma point_eqb_spec p q : reflect (p = q) (point_eqb p q).
Proof.
  destruct p as [a b], q as [c d]; unfold point_eqb; simpl.
  destruct (Z.eqb_spec a c), (Z.eqb_spec b d); simpl; constructor; congruence.
Qed.

Lemma point_eqb_refl p : point_eqb p p = true.
Proof. destruct (point_eqb_spec p p); congruence. Qed.

(** Membership in a Python set of points, represented as a list. *)
Definition mem_point (p : point) (l : list point) : bool :=
  existsb (point_eqb p) l.

Lemma mem_point_spec p l : reflect (In p l) (mem_point p l).
Proof.
  unfold mem_point. destruct (existsb (point_eqb p) l) eqn:E; constructor.
  - apply existsb_exists in E. destruct E as (q & Hq & E).
    destruct (point_eqb_spec p q); congruence.
  - intro H. assert (existsb (point_eqb p) l = true) as E2.
    { apply existsb_exists. exists p. split; [exact H|apply point_eqb_refl]. }
    congruence.
Qed.
