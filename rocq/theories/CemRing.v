(** The cross-entropy tuner run by the ringmaster (C43): the competition, and what it relies
    on. *)
From Coq Require Import QArith.
From Verif Require Import Base Bytes Dict JobModel JobSpec RingModel RingSpec SchedModel CemModel CemSpec.
Open Scope Z_scope.

Section Ring.
Context {V P : Type}.

(** The methods of cem_tuners.py:Cem_tuner as the ringmaster calls them; the reports change
    nothing. *)
Definition cem_comp : competition (cconfig V P) (ctuner V P) cstatus (cjob P) cresponse := {|
  c_clean := set_clean_status;
  c_load := set_status;
  c_status := get_status;
  c_get := get_game;
  c_result := process_game_result;
  c_error := fun _ previous_error_count t => process_game_error previous_error_count t;
  c_report := fun t => t
|}.

(** A response carries the job's game data, and its players. *)
Definition cem_answer (j : cjob P) (r : cresponse) : Prop :=
  cr_data r = cj_data j /\ cr_black r = fst (cj_black j) /\ cr_white r = fst (cj_white j).

(** The scheduler takes round [n] of candidate [i] as finished. *)
Definition played (s : gsched) (i n : nat) : Prop :=
  exists a, dget (group_code i) (allocators s) = Some a /\
    (n < next_new a)%nat /\ ~ In n (outstanding a) /\ ~ In n (to_reissue a).

(** The status contains the generation with its samples, the points, and the finished games. *)
Definition cem_records (cf : cconfig V P) (st : option cstatus) (t : ctuner V P) : Prop :=
  match st with
  | Some st =>
      cst_generation st = ct_generation t /\ cst_distribution st = ct_distribution t /\
      cst_samples st = ct_samples t /\ cst_wins st = ct_wins t /\
      forall i n, played (gsched_setstate (cst_sched st)) i n <-> played (ct_sched t) i n
  | None =>
      ct_generation t = 0%nat /\ ct_distribution t = cc_initial cf /\
      ct_wins t = repeat 0 (cc_samples cf) /\ forall i n, ~ played (ct_sched t) i n
  end.
End Ring.
