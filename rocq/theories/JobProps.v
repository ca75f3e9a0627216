(** C28: the job manager. *)
From Coq Require Import Permutation.
From Verif Require Import Base Bytes JobModel JobSpec JobProofs.

(** C28.  Whatever the job source and the jobs do, and in whatever order workers take and
    finish jobs: the jobs started are the first of those obtained, in order; every job obtained
    is queued, being run or has been run once; every job run has its outcome delivered, once,
    in the order in which they finished, or waiting to be delivered; and at most [n] jobs have
    been obtained without their outcome being delivered. *)
Theorem C28_each_job_run_once {J R S} (src : source J R S) (runs : J -> ran R -> Prop) (passed : exn -> bool) n s0 ls st :
  (1 <= n)%nat -> mrun src runs passed n (minit n s0) ls st ->
  obtained ls = started ls ++ ms_queue st /\
  Permutation (started ls) (busy (ms_workers st) ++ map fst (finished ls)) /\
  Forall (fun p => runs (fst p) (snd p)) (finished ls) /\
  delivered ls ++ ms_resp st = map (fun p => outcome_of (fst p) (snd p)) (finished ls) /\
  (List.length (obtained ls) <= n + List.length (delivered ls))%nat /\
  (List.length (busy (ms_workers st)) <= n)%nat.
Proof. exact (C28_each_job_run_once_proof src runs passed n s0 ls st). Qed.
Print Assumptions C28_each_job_run_once.

(** When run_jobs returns, every job obtained has been run and its outcome delivered; the
    source's last answer was that it has no job, and nothing was in flight then: in
    particular the source has been told everything before it is last asked. *)
Theorem C28_returns_when_nothing_is_left {J R S} (src : source J R S) (runs : J -> ran R -> Prop) (passed : exn -> bool) n s0 ls st :
  (1 <= n)%nat -> mrun src runs passed n (minit n s0) ls st -> ms_pc st = MReturned ->
  Permutation (obtained ls) (map fst (finished ls)) /\
  delivered ls = map (fun p => outcome_of (fst p) (snd p)) (finished ls) /\
  ms_queue st = [] /\ busy (ms_workers st) = [] /\ ms_resp st = [] /\
  history src runs n s0 [] (calls ls) (ms_src st) [] /\
  exists cs, calls ls = cs ++ [CallGet (Ok None)].
Proof. exact (C28_returns_proof src runs passed n s0 ls st). Qed.
Print Assumptions C28_returns_when_nothing_is_left.

(** What the source sees: calls that make up a history (JobSpec.v), at any time until one of
    its methods raises an exception; then run_jobs raises that one or a JobSourceError. *)
Theorem C28_calls_form_a_history {J R S} (src : source J R S) (runs : J -> ran R -> Prop) (passed : exn -> bool) n s0 ls st :
  (1 <= n)%nat -> mrun src runs passed n (minit n s0) ls st ->
  match ms_pc st with
  | MRaised e => exists e0, e = (if passed e0 then e0 else JobSourceError) /\ history_raises src runs n s0 [] (calls ls) (ms_src st) e0
  | _ => exists l, history src runs n s0 [] (calls ls) (ms_src st) l /\ (List.length l <= n)%nat /\
           Permutation (obtained ls) (l ++ firstn (List.length (delivered ls)) (map fst (finished ls)))
  end.
Proof. exact (C28_calls_proof src runs passed n s0 ls st). Qed.
Print Assumptions C28_calls_form_a_history.

(** run_jobs can always go on until it returns or raises, and it can't go on for ever unless
    the source keeps providing jobs. *)
Theorem C28_no_deadlock {J R S} (src : source J R S) (runs : J -> ran R -> Prop) (passed : exn -> bool) n s0 ls st :
  (1 <= n)%nat -> mrun src runs passed n (minit n s0) ls st ->
  (forall s, exists x s', s_get src s x s') ->
  (forall r s, exists x s', s_response src r s x s') ->
  (forall j m s, exists x s', s_error src j m s x s') ->
  (forall j, exists x, runs j x) ->
  ms_pc st = MReturned \/ (exists e, ms_pc st = MRaised e) \/ exists l st', mstep src runs passed n st l st'.
Proof. exact (C28_no_deadlock_proof src runs passed n s0 ls st). Qed.
Print Assumptions C28_no_deadlock.

Theorem C28_terminates {J R S} (src : source J R S) (runs : J -> ran R -> Prop) (passed : exn -> bool) n s0 ls st :
  (1 <= n)%nat -> mrun src runs passed n (minit n s0) ls st ->
  (List.length ls <= 5 * List.length (obtained ls) + 1)%nat.
Proof. exact (bounded_length src runs passed n s0 ls st). Qed.
Print Assumptions C28_terminates.

(** The same for the in-process manager, with one job at a time. *)
Theorem C28_in_process {J R S} (src : source J R S) (runs : J -> ran R -> Prop) (passed : exn -> bool) s0 ls s pc :
  irun src runs passed (s0, ITop) ls (s, pc) ->
  match pc with
  | IRun j => obtained ls = map fst (finished ls) ++ [j]
  | _ => obtained ls = map fst (finished ls)
  end /\
  match pc with
  | IDeliver o => delivered ls ++ [o]
  | _ => delivered ls
  end = map (fun p => outcome_of (fst p) (snd p)) (finished ls) /\
  Forall (fun p => runs (fst p) (snd p)) (finished ls) /\
  match pc with
  | IRaised e => exists e0, e = (if passed e0 then e0 else JobSourceError) /\ history_raises src runs 1 s0 [] (calls ls) s e0
  | IReturned => history src runs 1 s0 [] (calls ls) s [] /\ exists cs, calls ls = cs ++ [CallGet (Ok None)]
  | _ => exists l, history src runs 1 s0 [] (calls ls) s l
  end.
Proof. exact (C28_in_process_proof src runs passed s0 ls s pc). Qed.
Print Assumptions C28_in_process.

(** ** An example: three jobs, two workers; the second job fails first. *)
Definition ex_source : source nat nat (nat * list (nat + nat)) := {|
  s_get := fun s x s' => match fst s with O => x = Ok None /\ s' = s | S k => x = Ok (Some k) /\ s' = (k, snd s) end;
  s_response := fun r s x s' => x = Ok tt /\ s' = (fst s, snd s ++ [inl r]);
  s_error := fun j _ s x s' => x = Ok tt /\ s' = (fst s, snd s ++ [inr j])
|}.
Definition ex_runs (j : nat) (x : ran nat) : Prop := match x with RanOk r => r = (j * 10)%nat | RanFailed _ => j = 1%nat end.
Definition ex_labels : list (label nat nat) :=
  [LGet (Some 2); LTake 1 2; LGet (Some 1); LTake 0 1; LFull; LFinish 0 1 (RanFailed []); LDeliver (JobError 1 []);
   LGet (Some 0); LFull; LTake 0 0; LFinish 1 2 (RanOk 20); LFinish 0 0 (RanOk 0); LDeliver (Response 20);
   LGet None; LDeliver (Response 0); LGet None]%nat.
Definition nobody (e : exn) : bool := false.
Example C28_example : mrun ex_source ex_runs nobody 2 (minit 2 (3%nat, [])) ex_labels
  (mkMS (0%nat, [inr 1; inl 20; inl 0]%nat) [] [None; None] [] 0 MReturned).
Proof.
  unfold ex_labels.
  let rec go := first [apply mr_nil | match goal with |- mrun _ _ _ _ _ ?l _ =>
    let l1 := eval vm_compute in (removelast l) in
    let x := eval vm_compute in (last l LFull) in
    change l with (l1 ++ [x]); eapply mr_snoc; [go|] end] in go.
  all: match goal with
       | |- mstep _ _ _ _ _ (LGet (Some _)) _ => apply m_job; [lia|split; reflexivity]
       | |- mstep _ _ _ _ _ (LGet None) _ => apply m_nojob; [lia|split; reflexivity]
       | |- mstep _ _ _ _ _ LFull _ => apply m_full; lia
       | |- mstep _ _ _ _ _ (LDeliver _) _ => apply m_deliver; split; reflexivity
       | |- mstep _ _ _ _ _ (LTake _ _) _ => apply m_take; reflexivity
       | |- mstep _ _ _ _ _ (LFinish _ _ _) _ => apply m_finish; reflexivity
       end.
Qed.
Example C28_example_counts : obtained ex_labels = [2; 1; 0]%nat /\
  map fst (finished ex_labels) = [1; 2; 0]%nat /\ delivered ex_labels = [JobError 1 []; Response 20; Response 0]%nat.
Proof. repeat split. Qed.
