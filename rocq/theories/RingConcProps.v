(** C70: several ringmaster processes on one competition.

    Any number of 'ringmaster' processes (run, stop, reset, show) work on the same competition; their
    system calls interleave in any way, and any of them may crash at any point. *)
From Verif Require Import Base RingConcModel RingConcSpec RingConcProofs RingConcStopProofs RingConcStateProofs.

(** Histories are read backwards: the latest event comes first. *)

(** Two runs are active at the same time only if the log file that one of them opened has been
    removed since (by a reset). *)
Theorem C70_exclusion : forall h p q, possible h -> p <> q -> active p h -> active q h ->
  (exists later r between earlier, h = later ++ (r, LogRemoved) :: between ++ (p, LogOpened) :: earlier) \/
  (exists later r between earlier, h = later ++ (r, LogRemoved) :: between ++ (q, LogOpened) :: earlier).
Proof. exact C70_exclusion_proof. Qed.

(** So without resets there is one at most. *)
Theorem C70_one_run : forall h p q, possible h -> no_reset h -> active p h -> active q h -> p = q.
Proof.
  intros h p q Po NR Ap Aq. destruct (Nat.eq_dec p q) as [|N]; [assumption|]. exfalso. destruct (possible_reach _ Po) as (w & R).
  destruct (C70_exclusion_proof h p q Po N Ap Aq) as [X|X]; eapply no_removed; eauto.
Qed.

(** As long as a run has not got the lock, it changes nothing but making the log file: no other file's
    name or contents, and no other process's lock. *)
Theorem C70_unlocked : forall sched w h p c l w', exec start [] sched = Some (w, h) ->
  In (p, Begin Run) h -> ~ active p h -> act w p c = Some (l, w') ->
  (forall n, n <> Log -> dir w' n = dir w n) /\
  (forall n i, n <> Log -> dir w n = Some i -> data w' i = data w i) /\
  (forall i q, q <> p -> lock w' i = Some q <-> lock w i = Some q).
Proof. exact C70_unlocked_proof. Qed.

(** A run that is refused has only loaded the state and opened the log, and does nothing more. *)
Theorem C70_refused : forall h p l, possible h -> In (p, Refused) h -> In (p, l) h ->
  l = Begin Run \/ (exists s, l = Loaded s) \/ l = LogOpened \/ l = Refused \/ l = Tau.
Proof.
  intros h p l Po I I'. destruct (possible_reach _ Po) as (w & R). destruct (reach_refused _ _ _ R I) as [_ H]. specialize (H _ I').
  destruct l as [[]| | | | | | | | | | | | | | | | |]; cbn in H; try contradiction; eauto 10.
Qed.

(** A run that is halted was stopped by a stop command given since it began: older ones have no effect. *)
Theorem C70_no_stale_stop : forall later p earlier, possible (later ++ (p, Halted) :: earlier) ->
  exists a q b c d, earlier = a ++ (q, StopWritten) :: b ++ (q, StopOpened) :: c ++ (p, Go) :: d.
Proof. exact C70_no_stale_proof. Qed.

(** A run that is halted starts no more games. *)
Theorem C70_halted : forall later p earlier, possible (later ++ (p, Halted) :: earlier) -> ~ In (p, Started) later.
Proof. exact C70_halted_proof. Qed.

(** A stop command arrives: when it has been given since the run began and has finished, then the run
    starts no game any more, unless yet another stop command has been given. *)
Theorem C70_stop_arrives : forall later p b q c d e,
  no_reset (later ++ (p, Started) :: b ++ (q, StopWritten) :: c ++ (q, StopOpened) :: d ++ (p, Go) :: e) ->
  possible (later ++ (p, Started) :: b ++ (q, StopWritten) :: c ++ (q, StopOpened) :: d ++ (p, Go) :: e) ->
  exists r, In (r, StopOpened) b.
Proof. exact C70_stop_arrives_proof. Qed.

(** Show reports the state that was saved last, however it falls among the saving, and whatever has
    crashed. *)
Theorem C70_show : forall later p s earlier, no_reset (later ++ (p, Shown s) :: earlier) ->
  possible (later ++ (p, Shown s) :: earlier) -> saved earlier s.
Proof. exact C70_shown_proof. Qed.

(** Saved results aren't lost, if no state is saved between a run's loading it and its locking. *)
Theorem C70_grows : forall later q s2 earlier p s1,
  no_reset (later ++ (q, Wrote s2) :: earlier) -> undisturbed (later ++ (q, Wrote s2) :: earlier) ->
  possible (later ++ (q, Wrote s2) :: earlier) -> In (p, Wrote s1) earlier -> exists more, s2 = s1 ++ more.
Proof. exact C70_grows_proof. Qed.

(** A result that a run has counted gets saved before the run does anything else; only a crash, or an
    error in saving it, prevents that. *)
Theorem C70_counted : forall later p g earlier, possible (later ++ (p, Counted g) :: earlier) ->
  (exists s, In (p, Wrote s) later /\ In g s) \/ (forall l, In (p, l) later -> l = Tau \/ l = Ended).
Proof. exact C70_counted_proof. Qed.

Print Assumptions C70_exclusion.
Print Assumptions C70_one_run.
Print Assumptions C70_unlocked.
Print Assumptions C70_refused.
Print Assumptions C70_no_stale_stop.
Print Assumptions C70_halted.
Print Assumptions C70_stop_arrives.
Print Assumptions C70_show.
Print Assumptions C70_grows.
Print Assumptions C70_counted.

(** ** Examples *)
Definition history (sched : list (nat * choice)) : option (list event) :=
  match exec start [] sched with Some (_, h) => Some (rev h) | None => None end.
Lemma history_possible sched h : history sched = Some h -> possible (rev h).
Proof.
  unfold history, possible. destruct (exec start [] sched) as [[w h0]|] eqn:E; [|discriminate]. intros H. injection H as <-. exists sched, w. rewrite rev_involutive. exact E.
Qed.
Definition next (p : nat) : nat * choice := (p, CNext true).
(** A run up to [Go], with no state and no command file; with a state and no command file. *)
Definition begin_run (p : nat) : list (nat * choice) := (p, CBegin Run) :: repeat (next p) 4.
Definition begin_again (p : nat) : list (nat * choice) := (p, CBegin Run) :: repeat (next p) 5.
Definition game (p : nat) (g : Z) : list (nat * choice) := next p :: (p, CReply g) :: repeat (next p) 3.

(** Run 0 plays a game; a second run is refused; a stop command arrives while a game goes on; show
    reports between; a third run carries on, and crashes while it saves. *)
Definition story : list (nat * choice) :=
  begin_run 0 ++ game 0 7 ++ begin_run 1 (* refused *) ++ [next 0] ++
  [(2%nat, CBegin StopCommand); next 2; next 2; (3%nat, CBegin Show); next 3; next 3] ++
  [next 0; next 0; next 0; next 0; (0%nat, CReply 8)] ++ repeat (next 0) 3 ++ [(0%nat, CFinish)] ++
  begin_again 4 ++ [next 4; (4%nat, CReply 9); next 4; (4%nat, CCrash); (5%nat, CBegin Show); next 5; next 5].
Definition visible (h : list event) : list event := filter (fun e => match snd e with Tau => false | _ => true end) h.
Example C70_story : exists h, history story = Some h /\
  visible h =
  ([(0, Begin Run); (0, Loaded []); (0, LogOpened); (0, Acquired); (0, Go); (0, Started); (0, Counted 7%Z); (0, Wrote [7%Z]);
    (1, Begin Run); (1, Loaded [7%Z]); (1, LogOpened); (1, Refused); (0, Started);
    (2, Begin StopCommand); (2, StopOpened); (2, StopWritten); (3, Begin Show); (3, Shown [7%Z]);
    (0, Halted); (0, Counted 8%Z); (0, Wrote [7%Z; 8%Z]); (0, Ended);
    (4, Begin Run); (4, Loaded [7%Z; 8%Z]); (4, LogOpened); (4, Acquired); (4, Go); (4, Started); (4, Counted 9%Z); (4, Ended);
    (5, Begin Show); (5, Shown [7%Z; 8%Z])]%nat).
Proof. eexists. split; vm_compute; reflexivity. Qed.

(** The state is loaded before the lock is taken: run 0 loads, run 1 plays a game and ends, run 0 goes
    on from the old state, and run 1's result is lost. *)
Definition lost : list (nat * choice) :=
  [(0%nat, CBegin Run); next 0] ++ begin_run 1 ++ game 1 7 ++ [(1%nat, CFinish)] ++ repeat (next 0) 3 ++ game 0 8.
Example C70_finding_lost_results : exists h, history lost = Some h /\
  visible h = ([(0, Begin Run); (0, Loaded []); (1, Begin Run); (1, Loaded []); (1, LogOpened); (1, Acquired); (1, Go); (1, Started);
    (1, Counted 7%Z); (1, Wrote [7%Z]); (1, Ended); (0, LogOpened); (0, Acquired); (0, Go); (0, Started); (0, Counted 8%Z); (0, Wrote [8%Z])]%nat).
Proof. eexists. split; vm_compute; reflexivity. Qed.

(** A reset while a run is active: a second run gets a new log file, and the lock on it. *)
Definition two_runs : list (nat * choice) :=
  begin_run 0 ++ [next 0] ++ [(1%nat, CBegin Reset); next 1; next 1; next 1] ++ begin_run 2 ++ [next 2].
Example C70_finding_reset : exists h, possible h /\ active 0 h /\ active 2 h.
Proof.
  destruct (history two_runs) as [h|] eqn:E; [|vm_compute in E; discriminate]. exists (rev h). split; [eapply history_possible; exact E|].
  assert (Some h = history two_runs) as E' by (symmetry; exact E). assert (history two_runs = Some ([(0, Begin Run); (0, Loaded []); (0, LogOpened); (0, Acquired); (0, Go); (0, Started);
    (1, Begin Reset); (1, LogRemoved); (1, StatusRemoved); (1, CmdRemoved); (2, Begin Run); (2, Loaded []); (2, LogOpened); (2, Acquired); (2, Go); (2, Started)]%nat)) as X by (vm_compute; reflexivity).
  rewrite X in E'. injection E' as ->. cbn [rev app]. split.
  - exists [(2, Started); (2, Go); (2, Acquired); (2, LogOpened); (2, Loaded []); (2, Begin Run); (1, CmdRemoved); (1, StatusRemoved); (1, LogRemoved); (1, Begin Reset); (0, Started); (0, Go)]%nat. eexists. split; [reflexivity|]. cbn. intuition discriminate.
  - exists [(2, Started); (2, Go)]%nat. eexists. split; [reflexivity|]. cbn. intuition discriminate.
Qed.

(** A stop command given while a run starts up is lost. *)
Definition early_stop : list (nat * choice) :=
  [(0%nat, CBegin Run)] ++ repeat (next 0) 3 ++ [(1%nat, CBegin StopCommand); next 1; next 1] ++ repeat (next 0) 3.
Example C70_finding_early_stop : exists h, history early_stop = Some h /\
  visible h = ([(0, Begin Run); (0, Loaded []); (0, LogOpened); (0, Acquired); (1, Begin StopCommand); (1, StopOpened); (1, StopWritten); (0, Go); (0, Started)]%nat).
Proof. eexists. split; vm_compute; reflexivity. Qed.

(** The exception in C70_stop_arrives: while a second stop command has the file open, the first one is
    not seen. *)
Definition overlapping_stops : list (nat * choice) :=
  begin_run 0 ++ [(1%nat, CBegin StopCommand); next 1; next 1; (2%nat, CBegin StopCommand); next 2] ++ repeat (next 0) 3.
Example C70_overlapping : exists h, history overlapping_stops = Some h /\
  skipn 5 (visible h) = ([(1, Begin StopCommand); (1, StopOpened); (1, StopWritten); (2, Begin StopCommand); (2, StopOpened); (0, Started)]%nat).
Proof. eexists. split; vm_compute; reflexivity. Qed.

(** The story meets the hypotheses of the theorems. *)
Fixpoint scan (p : nat) (wrote : bool) (h : list event) : bool :=
  match h with
  | [] => true
  | (_, Wrote _) :: t => scan p true t
  | (q, Loaded _) :: t => negb (Nat.eqb q p && wrote) && scan p wrote t
  | _ :: t => scan p wrote t
  end.
Fixpoint undisturbed_b (h : list event) : bool :=
  match h with [] => true | (p, Acquired) :: t => scan p false t && undisturbed_b t | _ :: t => undisturbed_b t end.
Lemma scan_sound p between : forall wrote s earlier, scan p wrote (between ++ (p, Loaded s) :: earlier) = true -> wrote = false /\ forall q s', ~ In (q, Wrote s') between.
Proof.
  induction between as [|[q l] t IH]; intros wrote s earlier H; cbn [app scan] in H.
  - rewrite Nat.eqb_refl in H. destruct wrote; [discriminate|]. split; auto.
  - destruct l; try (destruct (IH _ _ _ H) as [-> X]; split; [reflexivity|]; intros q' s' [Y|Y]; [discriminate Y|eapply X; exact Y]).
    + apply Bool.andb_true_iff in H. destruct H as [_ H]. destruct (IH _ _ _ H) as [-> X]; split; [reflexivity|]; intros q' s' [Y|Y]; [discriminate Y|eapply X; exact Y].
    + destruct (IH _ _ _ H) as [X _]. discriminate.
Qed.
Lemma undisturbed_sound h : undisturbed_b h = true -> undisturbed h.
Proof.
  intros H later p between s earlier ->. induction later as [|[q l] t IH]; cbn [app undisturbed_b] in H.
  - apply Bool.andb_true_iff in H. destruct H as [H _]. apply scan_sound in H. apply H.
  - apply IH. destruct l; auto. apply Bool.andb_true_iff in H. apply H.
Qed.
Definition no_reset_b (h : list event) : bool := forallb (fun e => match snd e with Begin Reset => false | _ => true end) h.
Lemma no_reset_sound h : no_reset_b h = true -> no_reset h.
Proof. intros H r I. unfold no_reset_b in H. rewrite forallb_forall in H. specialize (H _ I). discriminate. Qed.

Definition both_ok (sched : list (nat * choice)) : bool :=
  match exec start [] sched with Some (_, h) => no_reset_b h && undisturbed_b h | None => false end.
Example C70_story_hypotheses : exists h, possible h /\ no_reset h /\ undisturbed h /\ In (0%nat, Wrote [7]) h /\ In (0%nat, Wrote [7; 8]) h /\ In (3%nat, Shown [7]) h /\ In (0%nat, Halted) h.
Proof.
  assert (both_ok story = true) as B by (vm_compute; reflexivity). unfold both_ok in B. destruct (exec start [] story) as [[w h]|] eqn:E; [|discriminate].
  apply Bool.andb_true_iff in B. destruct B as [B1 B2]. exists h. split; [exists story, w; exact E|]. split; [apply no_reset_sound; auto|]. split; [apply undisturbed_sound; auto|].
  assert (match exec start [] story with Some (_, h) => Some h | None => None end = Some h) as X by (rewrite E; reflexivity).
  revert X. vm_compute (exec start [] story). intros X. injection X as <-. cbn [In]. intuition.
Qed.
(** The lost results come of a disturbed history. *)
Example C70_lost_disturbed : both_ok lost = false.
Proof. vm_compute. reflexivity. Qed.
