(** What the keyboard stop is to do (C77), apart from the code. *)
From Verif Require Import Base Bytes TerminalModel.

(** [b] is [a], but with the flag ICANON off, and zero as control character VMIN: reads
    return what's there at once, with no need for a newline. *)
Definition unbuffered (k : termios) (a b : tcattr) : Prop :=
  iflag b = iflag a /\ oflag b = oflag a /\ cflag b = cflag a /\ ispeed b = ispeed a /\ ospeed b = ospeed a /\
  (forall i, 0 <= i < 32 -> Z.testbit (lflag b) i = Z.testbit (lflag a) i && negb (Z.testbit (ICANON k) i)) /\
  (forall i, 32 <= i -> Z.testbit (lflag b) i = false) /\
  List.length (cc b) = List.length (cc a) /\ nth_error (cc b) (VMIN k) = Some 0 /\
  (forall i, i <> VMIN k -> nth_error (cc b) i = nth_error (cc a) i).

(** The reader is ready, for a terminal with the attributes [now]. *)
Definition ready (k : termios) (now : tcattr) (r : reader) : Prop :=
  enabled r = true /\ tty r = true /\ clean r = now /\ unbuffered k now (cbreak r).

(** At a check: this process leads the group in the foreground; the input could be read. *)
Definition in_foreground (c : check_calls) : Prop := c_pgrp c = Returned (c_pid c).
Definition in_background (c : check_calls) : Prop := exists g, c_pgrp c = Returned g /\ g <> c_pid c.

(** Nothing that would leave the terminal changed: restoring the attributes fails, or a
    signal comes right after they were changed. *)
Definition undisturbed (c : check_calls) : Prop := (forall e, c_restore c <> NotSet e) /\ (forall e, c_set c <> SetThen e).
