(** cem_tuners.py:63-85 with the rounding of Python's floats (C43): the standard library's
    specification of binary64 arithmetic, which has no axioms. *)
From Coq Require Import ZArith List.
From Coq Require Import Floats.SpecFloat.
Import ListNotations.
Open Scope Z_scope.

Definition f_add := SFadd 53 1024.
Definition f_sub := SFsub 53 1024.
Definition f_mul := SFmul 53 1024.
Definition f_div := SFdiv 53 1024.
Definition f_int (n : Z) : spec_float := binary_normalize 53 1024 n 0 false.
(** The float nearest to a/b (for small integers). *)
Definition f_frac (a b : Z) : spec_float := f_div (f_int a) (f_int b).

(** sum(): starts with the integer 0. *)
Definition f_sum (l : list spec_float) : spec_float := fold_left f_add l (f_int 0).

(** :76-83 the body of the loop of update_distribution. *)
Definition f_update_dimension (step_size : spec_float) (v : list spec_float) (old : spec_float * spec_float)
  : spec_float * spec_float :=
  let n := f_int (Z.of_nat (length v)) in
  let elite_mean := f_div (f_sum v) n in
  let elite_var := f_sub (f_div (f_sum (map (fun f => f_mul f f) v)) n) (f_mul elite_mean elite_mean) in
  (f_add (f_mul elite_mean step_size) (f_mul (fst old) (f_sub (f_int 1) step_size)),
   f_add (f_mul elite_var step_size) (f_mul (snd old) (f_sub (f_int 1) step_size))).

(** What sqrt in Gaussian_distribution's constructor (:31-37) refuses: a number below zero. *)
Definition f_negative (f : spec_float) : Prop := SFltb f (f_int 0) = true.
