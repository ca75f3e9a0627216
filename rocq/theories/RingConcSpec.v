(** Histories of ringmaster processes, for C70. *)
From Verif Require Import Base RingConcModel.

(** [h] is a possible history, latest event first. *)
Definition possible (h : list event) : Prop := exists sched w, exec start [] sched = Some (w, h).

(** After [h] the run [p] is active: it has the lock, and hasn't ended. *)
Definition active (p : nat) (h : list event) : Prop :=
  exists later earlier, h = later ++ (p, Acquired) :: earlier /\ ~ In (p, Ended) later.

Definition no_reset (h : list event) : Prop := forall r, ~ In (r, Begin Reset) h.

(** The last state saved in [h]. *)
Definition saved (h : list event) (s : list Z) : Prop :=
  exists later p earlier, h = later ++ (p, Wrote s) :: earlier /\ forall q s', ~ In (q, Wrote s') later.

(** No state is saved while some run is between loading the state and taking the lock. *)
Definition undisturbed (h : list event) : Prop :=
  forall later p between s earlier,
    h = later ++ (p, Acquired) :: between ++ (p, Loaded s) :: earlier -> forall q s', ~ In (q, Wrote s') between.
