(** What the theorems about dying workers and about shutting down are stated with (C87). *)
From Verif Require Import Base Bytes JobModel JobSpec WorkersModel.

Section Spec.
Context {J R : Type}.

(** What happened apart from the ends of workers. *)
Definition events (ls : list (flabel J R)) : list (label J R) :=
  flat_map (fun l => match l with Lab l => [l] | _ => [] end) ls.
(** The jobs that workers died with, and the number of deaths. *)
Definition lost (ls : list (flabel J R)) : list J :=
  flat_map (fun l => match l with LDie _ (Some j) => [j] | _ => [] end) ls.
Definition deaths (ls : list (flabel J R)) : nat :=
  List.length (List.filter (fun l => match l with LDie _ _ => true | _ => false end) ls).
(** The jobs on the job queue; the jobs being run. *)
Definition queued (q : list (item J)) : list J := flat_map (fun x => match x with IJob j => [j] | IFinish => [] end) q.
Definition held (w : list (worker J)) : list J := flat_map (fun x => match x with WJob j => [j] | _ => [] end) w.
(** How the method run_jobs ended, if it has. *)
Definition how (pc : fpc) : option ended := match pc with FEnded x | FJoin x | FDone x => Some x | _ => None end.

End Spec.
