(** C87: worker processes that die, and the shutting down of the workers. *)
From Coq Require Import Permutation.
From Verif Require Import Base Bytes JobModel JobSpec WorkersModel WorkersSpec WorkersProofs.

(** C87.  Whenever workers die, at whatever point: every job obtained is queued, being run, has
    been run once, or was lost with a worker; no job is run again; what the job source has been
    told is the outcome of jobs that were run, once each, in the order in which they ended. *)
Theorem C87_no_job_twice {J R S} (src : source J R S) (runs : J -> ran R -> Prop) (passed : exn -> bool) n s0 ls st :
  (1 <= n)%nat -> frun src runs passed n (finit n s0) ls st ->
  obtained (events ls) = started (events ls) ++ queued (fs_queue st) /\
  Permutation (started (events ls)) (held (fs_workers st) ++ lost ls ++ map fst (finished (events ls))) /\
  Forall (fun p => runs (fst p) (snd p)) (finished (events ls)) /\
  delivered (events ls) ++ fs_resp st = map (fun p => outcome_of (fst p) (snd p)) (finished (events ls)) /\
  (List.length (obtained (events ls)) <= n + List.length (delivered (events ls)))%nat.
Proof.
  intros N X. destruct (run_inv src runs passed _ _ _ _ N X) as [W O P U D A T Q G GG DD DN Z].
  repeat (split; [assumption|]). destruct (how (fs_pc st)) as [[|e]|]; [| exact A |]; destruct A; lia.
Qed.
Print Assumptions C87_no_job_twice.

(** What the job source sees is a history (JobSpec.v) all the same; the lost jobs stay in flight
    for ever. *)
Theorem C87_history {J R S} (src : source J R S) (runs : J -> ran R -> Prop) (passed : exn -> bool) n s0 ls st :
  (1 <= n)%nat -> frun src runs passed n (finit n s0) ls st ->
  match how (fs_pc st) with
  | Some (Raised e) => exists e0, e = (if passed e0 then e0 else JobSourceError) /\
      history_raises src runs n s0 [] (calls (events ls)) (fs_src st) e0
  | _ => exists l rest, history src runs n s0 [] (calls (events ls)) (fs_src st) l /\ (List.length l <= n)%nat /\
      Permutation l (lost ls ++ rest)
  end.
Proof.
  intros N X. pose proof (history_inv src runs passed _ _ _ _ N X) as H.
  destruct (how (fs_pc st)) as [[|e]|]; [| exact H |];
    (destruct H as (l & pend & Hl & Ln & _ & _ & Pl); exists l, (queued (fs_queue st) ++ held (fs_workers st) ++ map fst pend);
     split; [exact Hl|]; split; [exact Ln|]; rewrite Pl;
     rewrite (app_assoc (queued (fs_queue st)) (held (fs_workers st)) _), Permutation_app_swap_app, <- app_assoc; apply Permutation_refl).
Qed.
Print Assumptions C87_history.

(** If run_jobs returns, no job was lost: every one has been run and its outcome processed.  So
    run_jobs never returns once a job was lost. *)
Theorem C87_return_means_nothing_lost {J R S} (src : source J R S) (runs : J -> ran R -> Prop) (passed : exn -> bool) n s0 ls st :
  (1 <= n)%nat -> frun src runs passed n (finit n s0) ls st -> how (fs_pc st) = Some Returned ->
  lost ls = [] /\
  delivered (events ls) = map (fun p => outcome_of (fst p) (snd p)) (finished (events ls)) /\
  Permutation (obtained (events ls)) (map fst (finished (events ls))).
Proof. intros N X E. destruct (returned_proof src runs passed _ _ _ _ N X E) as (A & _ & _ & B & C). auto. Qed.
Print Assumptions C87_return_means_nothing_lost.

(** Whether run_jobs returns or raises an exception, no worker process is left running then.
    (Finding: unless a worker died, all the jobs obtained have been run then: after an error from
    the job source, run_jobs raises it only when the jobs in flight and those still queued
    have been run; what they ended in is thrown away.) *)
Theorem C87_workers_ended {J R S} (src : source J R S) (runs : J -> ran R -> Prop) (passed : exn -> bool) n s0 ls st x :
  (1 <= n)%nat -> frun src runs passed n (finit n s0) ls st -> fs_pc st = FDone x ->
  Forall (fun w => w = WGone \/ w = WDead) (fs_workers st) /\
  (deaths ls = 0%nat -> Forall (eq WGone) (fs_workers st) /\ fs_queue st = [] /\
     Permutation (obtained (events ls)) (map fst (finished (events ls)))).
Proof. exact (shut_down_proof src runs passed n s0 ls st x). Qed.
Print Assumptions C87_workers_ended.

(** If the source's methods and the jobs end, run_jobs goes on to its end without help from
    further deaths, in a bounded number of steps unless the source keeps providing jobs; except when it waits for
    the outcome of a job that was lost, or all the workers are dead. *)
Theorem C87_goes_on {J R S} (src : source J R S) (runs : J -> ran R -> Prop) (passed : exn -> bool) n s0 ls st :
  (1 <= n)%nat -> frun src runs passed n (finit n s0) ls st ->
  (forall s, exists x s', s_get src s x s') ->
  (forall r s, exists x s', s_response src r s x s') ->
  (forall j m s, exists x s', s_error src j m s x s') ->
  (forall j, exists x, runs j x) ->
  (exists x, fs_pc st = FDone x) \/
  (exists l st', (forall w o, l <> LDie w o) /\ fstep src runs passed n st l st') \/
  (fs_pc st = FWait /\ fs_resp st = [] /\ held (fs_workers st) = [] /\
   ((lost ls <> [] /\ queued (fs_queue st) = []) \/ Forall (eq WDead) (fs_workers st))).
Proof. exact (goes_on_proof src runs passed n s0 ls st). Qed.
Print Assumptions C87_goes_on.

Theorem C87_bounded {J R S} (src : source J R S) (runs : J -> ran R -> Prop) (passed : exn -> bool) n s0 ls st :
  (1 <= n)%nat -> frun src runs passed n (finit n s0) ls st ->
  (List.length ls <= 5 * List.length (obtained (events ls)) + n + 3)%nat.
Proof. exact (bounded_proof src runs passed n s0 ls st). Qed.
Print Assumptions C87_bounded.

(** Finding: the exception is a real one.  In such a state run_jobs hangs for ever (nothing but
    further deaths can happen): the manager never looks whether its workers are alive. *)
Theorem C87_finding_hangs {J R S} (src : source J R S) (runs : J -> ran R -> Prop) (passed : exn -> bool) n st :
  let hung st := fs_pc st = FWait /\ fs_resp st = [] /\ held (fs_workers st) = [] /\
                 (fs_queue st = [] \/ Forall (eq WDead) (fs_workers st)) in
  hung st -> forall ls st', frun src runs passed n st ls st' -> hung st' /\ events ls = [].
Proof.
  intros hung H ls st' X. revert H. induction X as [st|st ls st1 l st2 _ IH Y]; intros H; [split; [exact H|reflexivity]|].
  destruct (IH H) as [(E1 & E2 & E3 & E4) Ev]. destruct st1 as [s q w r a pc]. cbn in E1, E2, E3, E4. subst.
  destruct (hangs_proof src runs passed n s q w a l st2 E3 E4 Y) as [(i & ->) (w' & -> & H1 & H2)].
  rewrite events_snoc, Ev. split; [|reflexivity]. unfold hung. auto.
Qed.
Print Assumptions C87_finding_hangs.

(** ** Examples *)
Lemma step_to {J R S} (src : source J R S) runs passed n a l b c : fstep src runs passed n a l b -> b = c -> fstep src runs passed n a l c.
Proof. intros X <-. exact X. Qed.
Ltac go_on :=
  let rec go := first [apply fr_nil | match goal with |- frun _ _ _ _ _ ?l _ =>
    let l1 := eval vm_compute in (removelast l) in
    let x := eval vm_compute in (last l LJoined) in
    change l with (l1 ++ [x]); eapply fr_snoc; [go|] end] in go.
Ltac one_step :=
  match goal with
       | |- fstep _ _ _ _ _ (Lab (LGet (Some _))) _ => apply f_job; [lia|split; reflexivity]
       | |- fstep _ _ _ _ _ (Lab (LGet None)) _ => apply f_nojob; [lia|split; reflexivity]
       | |- fstep _ _ _ _ _ (Lab (LDeliver _)) _ => apply f_deliver; split; reflexivity
       | |- fstep _ _ _ _ _ (Lab (LTake _ _)) _ => apply f_take; reflexivity
       | |- fstep _ _ _ _ _ (Lab (LFinish _ _ _)) _ => apply f_finish; reflexivity
       | |- fstep _ _ _ _ _ (LDie _ None) _ => apply f_die_idle; reflexivity
       | |- fstep _ _ _ _ _ (LDie _ (Some _)) _ => eapply step_to; [apply f_die_job; reflexivity|reflexivity]
       | |- fstep _ _ _ _ _ (LLeave _) _ => apply f_leave; reflexivity
       | |- fstep _ _ _ _ _ LJoined _ => apply f_joined; repeat (constructor; [first [left; reflexivity|right; reflexivity]|]); constructor
       | |- fstep _ _ _ _ _ LSignals _ => apply f_signals
       end.

Definition one_job : source nat nat bool := {|
  s_get := fun s x s' => s' = true /\ x = Ok (if s then None else Some 7%nat);
  s_response := fun _ s x s' => x = Ok tt /\ s' = s;
  s_error := fun _ _ s x s' => x = Ok tt /\ s' = s
|}.
Definition run_any (j : nat) (x : ran nat) : Prop := x = RanOk j.
Definition none_passed (e : exn) : bool := false.

(** A worker dies with the only job: hung. *)
Example C87_demo_hung : frun one_job run_any none_passed 2 (finit 2 false)
  [Lab (LGet (Some 7%nat)); Lab (LTake 1 7%nat); Lab (LGet None); LDie 1 (Some 7%nat)]
  (mkFS true [] [WIdle; WDead] [] 1 FWait).
Proof. go_on. all: one_step. Qed.
Example C87_demo_hung_is_hung : let st := mkFS (J:=nat) (R:=nat) true [] [WIdle; WDead] [] 1 FWait in
  fs_pc st = FWait /\ fs_resp st = [] /\ held (fs_workers st) = [] /\ fs_queue st = [].
Proof. repeat split. Qed.

(** A worker that dies when idle does no harm: the other one runs the job, and run_jobs returns. *)
Definition demo_labels : list (flabel nat nat) :=
  [LDie 0 None; Lab (LGet (Some 7)); Lab (LGet None); Lab (LTake 1 7); Lab (LFinish 1 7 (RanOk 7)); Lab (LDeliver (Response 7));
   Lab (LGet None); LSignals; LLeave 1; LJoined]%nat.
Example C87_demo_returns : frun one_job run_any none_passed 2 (finit 2 false) demo_labels
  (mkFS true [IFinish] [WDead; WGone] [] 0 (FDone Returned)).
Proof. unfold demo_labels. go_on. all: one_step. Qed.
