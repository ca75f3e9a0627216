(** Model of gomill/job_manager.py: the multiprocessing job manager again, now with worker
    processes that can die at any point, and with the shutting down of the workers. *)
From Verif Require Import Base Bytes JobModel.

Section Workers.
Context {J R S : Type}.
Variable src : source J R S.
Variable runs : J -> ran R -> Prop.
Variable passed : exn -> bool.

(** What is put on the job queue: job_manager.py:106-107 (jobs) and :142-143 (the finish signal). *)
Inductive item : Type := IJob (j : J) | IFinish.
(** A worker process: waiting for the job queue, running a job, ended after a finish signal
    (job_manager.py:43-45), dead. *)
Inductive worker : Type := WIdle | WJob (j : J) | WGone | WDead.
(** How run_jobs (the manager's method) ended. *)
Inductive ended : Type := Returned | Raised (e : exn).
(** Where the manager is: in the method run_jobs (at the top of the loop, or waiting for the
    response queue); after it; in finish, waiting for the workers; at the end of run_jobs (the
    function). *)
Inductive fpc : Type := FTop | FWait | FEnded (r : ended) | FJoin (r : ended) | FDone (r : ended).

Record fsys : Type := mkFS {
  fs_src : S;
  fs_queue : list item;
  fs_workers : list worker;
  fs_resp : list (outcome J R);
  fs_active : nat;
  fs_pc : fpc
}.

Inductive flabel : Type :=
| Lab (l : label J R)          (* as in JobModel.v *)
| LDie (w : nat) (o : option J) (* worker w dies: when it waits, or with a job *)
| LSignals                     (* the finish signals are put on the job queue *)
| LLeave (w : nat)             (* worker w gets a finish signal and ends *)
| LJoined.                     (* every worker has ended *)

Definition gone_or_dead (w : worker) : Prop := w = WGone \/ w = WDead.

(** job_manager.py:92-140 [Multiprocessing_job_manager.run_jobs], :142-148 [finish], :36-60
    [worker_run_jobs], and :195-217 the function [run_jobs]: finish is called whether the method
    returns or raises, and then the exception is raised again.  A worker that dies after running
    its job, but before the response has reached the manager's end of the queue, dies "with the
    job".  Not modelled: a KeyboardInterrupt in the manager (then finish isn't called), a worker
    that dies holding a lock of a queue, and errors from finish itself. *)
Inductive fstep (n : nat) : fsys -> flabel -> fsys -> Prop :=
| f_job s q w r a j s' : (a < n)%nat -> s_get src s (Ok (Some j)) s' ->
    fstep n (mkFS s q w r a FTop) (Lab (LGet (Some j))) (mkFS s' (q ++ [IJob j]) w r (Datatypes.S a) FTop)
| f_nojob s q w r a s' : (a < n)%nat -> s_get src s (Ok None) s' ->
    fstep n (mkFS s q w r a FTop) (Lab (LGet None)) (mkFS s' q w r a (if Nat.eqb a 0 then FEnded Returned else FWait))
| f_get_error s q w r a e s' : (a < n)%nat -> s_get src s (Err e) s' ->
    fstep n (mkFS s q w r a FTop) (Lab (LGetError e)) (mkFS s' q w r a (FEnded (Raised (reraise passed e))))
| f_full s q w r a : ~ (a < n)%nat ->
    fstep n (mkFS s q w r a FTop) (Lab LFull) (mkFS s q w r a (if Nat.eqb a 0 then FEnded Returned else FWait))
| f_deliver s q w o r a s' : s_deliver src o s (Ok tt) s' ->
    fstep n (mkFS s q w (o :: r) a FWait) (Lab (LDeliver o)) (mkFS s' q w r (a - 1) FTop)
| f_deliver_error s q w o r a e s' : s_deliver src o s (Err e) s' ->
    fstep n (mkFS s q w (o :: r) a FWait) (Lab (LDeliverError o e)) (mkFS s' q w r a (FEnded (Raised (reraise passed e))))
| f_take s j q w r a pc i : nth_error w i = Some WIdle ->
    fstep n (mkFS s (IJob j :: q) w r a pc) (Lab (LTake i j)) (mkFS s q (set_nth w i (WJob j)) r a pc)
| f_finish s q w r a pc i j x : nth_error w i = Some (WJob j) -> runs j x ->
    fstep n (mkFS s q w r a pc) (Lab (LFinish i j x)) (mkFS s q (set_nth w i WIdle) (r ++ [outcome_of j x]) a pc)
| f_die_idle s q w r a pc i : nth_error w i = Some WIdle ->
    fstep n (mkFS s q w r a pc) (LDie i None) (mkFS s q (set_nth w i WDead) r a pc)
| f_die_job s q w r a pc i j : nth_error w i = Some (WJob j) ->
    fstep n (mkFS s q w r a pc) (LDie i (Some j)) (mkFS s q (set_nth w i WDead) r a pc)
| f_signals s q w r a x :
    fstep n (mkFS s q w r a (FEnded x)) LSignals (mkFS s (q ++ repeat IFinish n) w r a (FJoin x))
| f_leave s q w r a pc i : nth_error w i = Some WIdle ->
    fstep n (mkFS s (IFinish :: q) w r a pc) (LLeave i) (mkFS s q (set_nth w i WGone) r a pc)
| f_joined s q w r a x : Forall gone_or_dead w ->
    fstep n (mkFS s q w r a (FJoin x)) LJoined (mkFS s q w r a (FDone x)).

(** job_manager.py:80-90 [start_workers]. *)
Definition finit (n : nat) (s : S) : fsys := mkFS s [] (repeat WIdle n) [] 0 FTop.

Inductive frun (n : nat) : fsys -> list flabel -> fsys -> Prop :=
| fr_nil st : frun n st [] st
| fr_snoc st ls st1 l st2 : frun n st ls st1 -> fstep n st1 l st2 -> frun n st (ls ++ [l]) st2.

End Workers.
Arguments item : clear implicits.
Arguments worker : clear implicits.
Arguments fsys : clear implicits.
Arguments flabel : clear implicits.
