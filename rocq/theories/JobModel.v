(** Model of gomill/job_manager.py: the multiprocessing and in-process job managers as
    transition systems. *)
From Verif Require Import Base Bytes.

(** job_manager.py:14 [JobSourceError]. *)
Definition JobSourceError : exn := OtherError 120.

Section Jobs.
(** Jobs, responses, and the state of the job source. *)
Context {J R S : Type}.

(** What a job source's methods can do (relations: the methods may depend on the outside
    world): the state before, what is returned or raised, the state after. *)
Record source : Type := mkSource {
  s_get : S -> res (option J) -> S -> Prop;           (* None: NoJobAvailable *)
  s_response : R -> S -> res unit -> S -> Prop;
  s_error : J -> bytes -> S -> res unit -> S -> Prop
}.

(** What [job.run] can do: return a response, or raise an exception (JobFailed or another);
    then what matters is the text of the message. *)
Inductive ran : Type := RanOk (r : R) | RanFailed (msg : bytes).
(** What is put on the response queue: job_manager.py:46-55. *)
Inductive outcome : Type := Response (r : R) | JobError (j : J) (msg : bytes).
Definition outcome_of (j : J) (x : ran) : outcome :=
  match x with RanOk r => Response r | RanFailed m => JobError j m end.

Variable src : source.
(** [runs j x]: running [j] can end in [x]. *)
Variable runs : J -> ran -> Prop.
(** job_manager.py:100-105: exceptions of a class in passed_exceptions are re-raised; others
    become a JobSourceError. *)
Variable passed : exn -> bool.
Definition reraise (e : exn) : exn := if passed e then e else JobSourceError.

(** job_manager.py:122-139: process_error_response or process_response. *)
Definition s_deliver (o : outcome) (s : S) (x : res unit) (s' : S) : Prop :=
  match o with Response r => s_response src r s x s' | JobError j m => s_error src j m s x s' end.

(** Where the manager is: at the top of the loop; waiting at [response_queue.get()]; finished. *)
Inductive mpc : Type := MTop | MWait | MReturned | MRaised (e : exn).

(** job_manager.py:79-90: the two queues, the workers (idle or running a job), and the
    manager's local [active_jobs]. *)
Record msys : Type := mkMS {
  ms_src : S;
  ms_queue : list J;
  ms_workers : list (option J);
  ms_resp : list outcome;
  ms_active : nat;
  ms_pc : mpc
}.

Inductive label : Type :=
| LGet (a : option J)          (* get_job() returned *)
| LGetError (e : exn)          (* get_job() raised *)
| LFull                        (* active_jobs is number_of_workers *)
| LDeliver (o : outcome)       (* a response was processed *)
| LDeliverError (o : outcome) (e : exn)
| LTake (w : nat) (j : J)      (* worker w starts a job *)
| LFinish (w : nat) (j : J) (x : ran).   (* worker w has run a job *)

Fixpoint set_nth {A} (l : list A) (i : nat) (x : A) : list A :=
  match l, i with
  | [], _ => []
  | _ :: r, O => x :: r
  | y :: r, Datatypes.S i' => y :: set_nth r i' x
  end.

(** job_manager.py:92-140 [Multiprocessing_job_manager.run_jobs] and :36-56
    [worker_run_jobs], with [n] workers (not modelled: the finish signals, and the death of a
    worker process). *)
Inductive mstep (n : nat) : msys -> label -> msys -> Prop :=
| m_job s q w r a j s' : (a < n)%nat -> s_get src s (Ok (Some j)) s' ->
    mstep n (mkMS s q w r a MTop) (LGet (Some j)) (mkMS s' (q ++ [j]) w r (Datatypes.S a) MTop)
| m_nojob s q w r a s' : (a < n)%nat -> s_get src s (Ok None) s' ->
    mstep n (mkMS s q w r a MTop) (LGet None) (mkMS s' q w r a (if Nat.eqb a 0 then MReturned else MWait))
| m_get_error s q w r a e s' : (a < n)%nat -> s_get src s (Err e) s' ->
    mstep n (mkMS s q w r a MTop) (LGetError e) (mkMS s' q w r a (MRaised (reraise e)))
| m_full s q w r a : ~ (a < n)%nat ->
    mstep n (mkMS s q w r a MTop) LFull (mkMS s q w r a (if Nat.eqb a 0 then MReturned else MWait))
| m_deliver s q w o r a s' : s_deliver o s (Ok tt) s' ->
    mstep n (mkMS s q w (o :: r) a MWait) (LDeliver o) (mkMS s' q w r (a - 1) MTop)
| m_deliver_error s q w o r a e s' : s_deliver o s (Err e) s' ->
    mstep n (mkMS s q w (o :: r) a MWait) (LDeliverError o e) (mkMS s' q w r a (MRaised (reraise e)))
| m_take s j q w r a pc i : nth_error w i = Some None ->
    mstep n (mkMS s (j :: q) w r a pc) (LTake i j) (mkMS s q (set_nth w i (Some j)) r a pc)
| m_finish s q w r a pc i j x : nth_error w i = Some (Some j) -> runs j x ->
    mstep n (mkMS s q w r a pc) (LFinish i j x) (mkMS s q (set_nth w i None) (r ++ [outcome_of j x]) a pc).

(** job_manager.py:72-90: at the start the queues are empty and all workers idle. *)
Definition minit (n : nat) (s : S) : msys := mkMS s [] (repeat None n) [] 0 MTop.

Inductive mrun (n : nat) : msys -> list label -> msys -> Prop :=
| mr_nil st : mrun n st [] st
| mr_snoc st ls st1 l st2 : mrun n st ls st1 -> mstep n st1 l st2 -> mrun n st (ls ++ [l]) st2.

(** job_manager.py:153-193 [In_process_job_manager.run_jobs]. *)
Inductive ipc : Type := ITop | IRun (j : J) | IDeliver (o : outcome) | IReturned | IRaised (e : exn).
Inductive istep : S * ipc -> label -> S * ipc -> Prop :=
| i_job s j s' : s_get src s (Ok (Some j)) s' -> istep (s, ITop) (LGet (Some j)) (s', IRun j)
| i_nojob s s' : s_get src s (Ok None) s' -> istep (s, ITop) (LGet None) (s', IReturned)
| i_get_error s e s' : s_get src s (Err e) s' -> istep (s, ITop) (LGetError e) (s', IRaised (reraise e))
| i_run s j x : runs j x -> istep (s, IRun j) (LFinish 0 j x) (s, IDeliver (outcome_of j x))
| i_deliver s o s' : s_deliver o s (Ok tt) s' -> istep (s, IDeliver o) (LDeliver o) (s', ITop)
| i_deliver_error s o e s' : s_deliver o s (Err e) s' -> istep (s, IDeliver o) (LDeliverError o e) (s', IRaised (reraise e)).

Inductive irun : S * ipc -> list label -> S * ipc -> Prop :=
| ir_nil st : irun st [] st
| ir_snoc st ls st1 l st2 : irun st ls st1 -> istep st1 l st2 -> irun st (ls ++ [l]) st2.

End Jobs.
Arguments source : clear implicits.
Arguments ran : clear implicits.
Arguments outcome : clear implicits.
Arguments msys : clear implicits.
Arguments label : clear implicits.
Arguments ipc : clear implicits.
