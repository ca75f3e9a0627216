(** What the stateful player should do, apart from the code. *)
From Verif Require Import Base Bytes PyStr BoardModel BoardSpec CommonModel GtpModel GtpStateModel GtpStateSpec StatefulModel.

(** The draw, a number in the interval from 0 to 1 in steps of [2^-53], is less than [p]. *)
Definition resigns (draw : Z) (p : Z * nat) : Prop := draw * 10 ^ Z.of_nat (snd p) < fst p * 2 ^ 53.

(** [pts]: the empty points, each once. *)
Definition empties (st : gstate) (pts : list point) : Prop :=
  NoDup pts /\ forall q, In q pts <-> on_board (st_size st) q /\ view (st_board st) q = None.

Definition remark (n : nat) : bytes := str "chosen at random from " ++ str_int (Z.of_nat n) ++ str " choices".

Definition success (text : bytes) : bool * bytes * bool := (false, text, false).
Definition fails (text : bytes) : bool * bytes * bool := (true, text, false).

(** The programs in sessions in which the game state is as in C37. *)
Definition sound (s : program) : Prop := served (p_game s) /\ st_sizes (p_game s) = [9; 13; 19].

Definition state_names : list bytes := map command_name state_commands.
