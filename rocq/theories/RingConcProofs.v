(** Steps of ringmaster processes; locks (C70). *)
From Verif Require Import Base RingConcModel RingConcSpec.

(** ** Small facts *)
Lemma name_eqb_spec a b : reflect (a = b) (name_eqb a b).
Proof. destruct a, b; constructor; congruence. Qed.
Lemma inode_eqb_spec a b : reflect (a = b) (inode_eqb a b).
Proof.
  destruct a as [n k], b as [m j]. unfold inode_eqb. cbn [fst snd]. destruct (name_eqb_spec n m) as [E|N]; [|constructor; congruence].
  destruct (Nat.eqb_spec k j) as [E'|N]; constructor; congruence.
Qed.
Lemma inode_eqb_refl i : inode_eqb i i = true.
Proof. destruct (inode_eqb_spec i i); congruence. Qed.
Lemma name_eqb_refl i : name_eqb i i = true.
Proof. destruct i; reflexivity. Qed.

Lemma procs_set p x w q : procs (set_proc p x w) q = if Nat.eqb q p then x else procs w q.
Proof. reflexivity. Qed.
Lemma procs_same p x w : procs (set_proc p x w) p = x.
Proof. cbn. rewrite Nat.eqb_refl. reflexivity. Qed.

(** ** Steps, one by one *)
Definition with_phase (r : running) (ph : phase) : running := mkRunning (r_state r) (r_log r) (r_stopping r) (r_games r) ph.

Inductive step (w : sys) (p : nat) : label -> sys -> Prop :=
| s_begin_run : procs w p = Unborn -> step w p (Begin Run) (set_proc p Checking w)
| s_begin_stop : procs w p = Unborn -> step w p (Begin StopCommand) (set_proc p StopNew w)
| s_begin_reset : procs w p = Unborn -> step w p (Begin Reset) (set_proc p ResetLog w)
| s_begin_show : procs w p = Unborn -> step w p (Begin Show) (set_proc p ShowNew w)
| s_end : procs w p <> Unborn -> procs w p <> Gone -> step w p Ended (set_proc p Gone (release p w))
| s_clean : procs w p = Checking -> dir w Status = None -> step w p (Loaded []) (set_proc p (Ready []) w)
| s_exists i : procs w p = Checking -> dir w Status = Some i -> step w p Tau (set_proc p Loading w)
| s_load i s : procs w p = Loading -> dir w Status = Some i -> data w i = State s -> step w p (Loaded s) (set_proc p (Ready s) w)
| s_open_log s i w' : procs w p = Ready s -> open_append Log w = (i, w') -> step w p LogOpened (set_proc p (Opened s i) w')
| s_lock s i : procs w p = Opened s i -> lock w i = None -> step w p Acquired (set_proc p (Locked s i) (take_lock p i w))
| s_refused s i q : procs w p = Opened s i -> lock w i = Some q -> step w p Refused (set_proc p Gone w)
| s_go s i : procs w p = Locked s i -> dir w Cmd = None -> step w p Go (set_proc p (Running (mkRunning s i false 0 Idle)) w)
| s_cmd_exists s i j : procs w p = Locked s i -> dir w Cmd = Some j -> step w p Tau (set_proc p (Removing s i) w)
| s_cmd_removed s i j : procs w p = Removing s i -> dir w Cmd = Some j -> step w p Go (set_proc p (Running (mkRunning s i false 0 Idle)) (set_dir Cmd None w))
| s_stopping r : procs w p = Running r -> r_phase r = Idle -> r_stopping r = true -> step w p Tau w
| s_found r i : procs w p = Running r -> r_phase r = Idle -> r_stopping r = false -> dir w Cmd = Some i -> step w p Tau (set_proc p (Running (with_phase r Found)) w)
| s_cmd_open r i : procs w p = Running r -> r_phase r = Found -> dir w Cmd = Some i -> step w p Tau (set_proc p (Running (with_phase r (Reading i))) w)
| s_halt r i : procs w p = Running r -> r_phase r = Reading i -> data w i = Stop -> step w p Halted (set_proc p (Running (mkRunning (r_state r) (r_log r) true (r_games r) Unlinking)) w)
| s_unlink r : procs w p = Running r -> r_phase r = Unlinking -> step w p Tau (set_proc p (Running (with_phase r Idle)) (set_dir Cmd None w))
| s_start r l w' game : procs w p = Running r ->
    (r_phase r = Idle /\ r_stopping r = false /\ dir w Cmd = None \/ r_phase r = Found /\ dir w Cmd = None \/ exists i, r_phase r = Reading i /\ data w i <> Stop) ->
    start_game p r game w = Some (l, w') -> step w p l w'
| s_count r k g : procs w p = Running r -> r_phase r = Idle -> r_games r = S k -> step w p (Counted g) (set_proc p (Running (mkRunning (r_state r ++ [g]) (r_log r) (r_stopping r) k Saving)) w)
| s_void r k : procs w p = Running r -> r_phase r = Idle -> r_games r = S k -> step w p Tau (set_proc p (Running (mkRunning (r_state r) (r_log r) (r_stopping r) k Saving)) w)
| s_save r i w' : procs w p = Running r -> r_phase r = Saving -> open_write New w = (i, w') -> step w p Tau (set_proc p (Running (with_phase r (Dumping i))) w')
| s_dump r i : procs w p = Running r -> r_phase r = Dumping i -> step w p Tau (set_proc p (Running (with_phase r Renaming)) (set_data i (State (r_state r)) w))
| s_rename r i : procs w p = Running r -> r_phase r = Renaming -> dir w New = Some i ->
    step w p (Wrote (r_state r)) (set_proc p (Running (with_phase r Idle)) (set_dir New None (set_dir Status (Some i) w)))
| s_stop_open i w' : procs w p = StopNew -> open_write Cmd w = (i, w') -> step w p StopOpened (set_proc p (StopOpen i) w')
| s_stop_write i : procs w p = StopOpen i -> step w p StopWritten (set_proc p Gone (set_data i Stop w))
| s_reset_log : procs w p = ResetLog -> step w p LogRemoved (set_proc p ResetStatus (set_dir Log None w))
| s_reset_status : procs w p = ResetStatus -> step w p StatusRemoved (set_proc p ResetCmd (set_dir Status None w))
| s_reset_cmd : procs w p = ResetCmd -> step w p CmdRemoved (set_proc p Gone (set_dir Cmd None w))
| s_show_exists i : procs w p = ShowNew -> dir w Status = Some i -> step w p Tau (set_proc p ShowLoading w)
| s_show i s : procs w p = ShowLoading -> dir w Status = Some i -> data w i = State s -> step w p (Shown s) (set_proc p Gone w).

Lemma act_step w p c l w' : act w p c = Some (l, w') -> step w p l w'.
Proof.
  assert (forall a b : label * sys, Some a = Some b -> a = b) as J by congruence.
  unfold act. destruct (procs w p) as [| | | |s|s i|s i|s i|r| |i| | | | |] eqn:P; destruct c as [cm|game|g| | |]; try discriminate;
    try (destruct cm; intros H; apply J in H; injection H as <- <-; constructor; assumption);
    try (unfold end_proc; intros H; apply J in H; injection H as <- <-; apply s_end; congruence).
  - destruct (dir w Status) as [i|] eqn:D; intros H; apply J in H; injection H as <- <-; [eapply s_exists|apply s_clean]; eauto.
  - destruct (dir w Status) as [i|] eqn:D; [destruct (data w i) as [| |s] eqn:E|]; unfold end_proc; intros H; apply J in H; injection H as <- <-; first [apply s_end; congruence|eapply s_load; eauto].
  - destruct (open_append Log w) as [i w1] eqn:O. intros H; apply J in H; injection H as <- <-. eapply s_open_log; eauto.
  - destruct (lock w i) as [q|] eqn:K; intros H; apply J in H; injection H as <- <-; [eapply s_refused|apply s_lock]; eauto.
  - destruct (dir w Cmd) as [j|] eqn:D; intros H; apply J in H; injection H as <- <-; [eapply s_cmd_exists|apply s_go]; eauto.
  - destruct (dir w Cmd) as [j|] eqn:D; unfold end_proc; intros H; apply J in H; injection H as <- <-; [eapply s_cmd_removed; eauto|apply s_end; congruence].
  - destruct (r_phase r); discriminate.
  - destruct (r_phase r) as [| |i| | |i|] eqn:F.
    + destruct (r_stopping r) eqn:S; [intros H; apply J in H; injection H as <- <-; eapply s_stopping; eauto|].
      destruct (dir w Cmd) as [i|] eqn:D; intros H; [apply J in H; injection H as <- <-; eapply s_found; eauto|]. eapply s_start; eauto.
    + destruct (dir w Cmd) as [i|] eqn:D; intros H; [apply J in H; injection H as <- <-; eapply s_cmd_open; eauto|]. eapply s_start; eauto.
    + destruct (data w i) as [| |s] eqn:D; intros H; [| apply J in H; injection H as <- <-; eapply s_halt; eauto |]; eapply s_start; eauto; right; right; exists i; split; auto; congruence.
    + intros H; apply J in H; injection H as <- <-. apply s_unlink; auto.
    + destruct (open_write New w) as [i w1] eqn:O. intros H; apply J in H; injection H as <- <-. eapply s_save; eauto.
    + intros H; apply J in H; injection H as <- <-. apply s_dump; auto.
    + destruct (dir w New) as [i|] eqn:D; unfold end_proc; intros H; apply J in H; injection H as <- <-; [apply s_rename; auto|apply s_end; congruence].
  - destruct (r_phase r) eqn:F; try discriminate. destruct (r_games r) eqn:G; [discriminate|]. intros H; apply J in H; injection H as <- <-. apply s_count; auto.
  - destruct (r_phase r) eqn:F; try discriminate. destruct (r_games r) eqn:G; [discriminate|]. intros H; apply J in H; injection H as <- <-. apply s_void; auto.
  - destruct (r_phase r) eqn:F; try discriminate. destruct (r_games r) eqn:G; [|discriminate]. unfold end_proc. intros H; apply J in H; injection H as <- <-. apply s_end; congruence.
  - destruct (open_write Cmd w) as [i w1] eqn:O. intros H; apply J in H; injection H as <- <-. eapply s_stop_open; eauto.
  - intros H; apply J in H; injection H as <- <-. apply s_stop_write; auto.
  - intros H; apply J in H; injection H as <- <-. apply s_reset_log; auto.
  - intros H; apply J in H; injection H as <- <-. apply s_reset_status; auto.
  - intros H; apply J in H; injection H as <- <-. apply s_reset_cmd; auto.
  - destruct (dir w Status) as [i|] eqn:D; unfold end_proc; intros H; apply J in H; injection H as <- <-; [eapply s_show_exists; eauto|apply s_end; congruence].
  - destruct (dir w Status) as [i|] eqn:D; [destruct (data w i) as [| |s] eqn:E|]; unfold end_proc; intros H; apply J in H; injection H as <- <-; first [apply s_end; congruence|eapply s_show; eauto].
Qed.

(** ** Reachable states with their histories *)
Inductive reach : sys -> list event -> Prop :=
| reach_start : reach start []
| reach_step w h p l w' : reach w h -> step w p l w' -> reach w' ((p, l) :: h).

Lemma exec_reach_from sched : forall w h w' h', reach w h -> exec w h sched = Some (w', h') -> reach w' h'.
Proof.
  induction sched as [|[p c] rest IH]; intros w h w' h' R; cbn [exec]; [intros H; injection H as <- <-; exact R|].
  destruct (act w p c) as [[l w1]|] eqn:A; [|discriminate]. apply IH. eapply reach_step; [exact R|]. eapply act_step. exact A.
Qed.
Lemma exec_reach sched w h : exec start [] sched = Some (w, h) -> reach w h.
Proof. apply exec_reach_from. apply reach_start. Qed.
Lemma possible_reach h : possible h -> exists w, reach w h.
Proof. intros (sched & w & E). exists w. eapply exec_reach. exact E. Qed.

Lemma start_game_inv p r game w l w' : start_game p r game w = Some (l, w') ->
  (l = Started \/ l = Tau) /\ exists k, w' = set_proc p (Running (mkRunning (r_state r) (r_log r) (r_stopping r) k Idle)) w.
Proof. unfold start_game. destruct game; intros H; inversion H; subst; split; auto; eexists; reflexivity. Qed.

(** ** Locks *)
Definition holds (x : proc) (i : inode) : Prop :=
  match x with Locked _ j => j = i | Removing _ j => j = i | Running r => r_log r = i | _ => False end.
Definition opened (x : proc) (i : inode) : Prop :=
  match x with Opened _ j => j = i | _ => holds x i end.

Lemma open_append_spec n w i w' : open_append n w = (i, w') ->
  procs w' = procs w /\ lock w' = lock w /\ dir w' n = Some i /\ (forall m, m <> n -> dir w' m = dir w m) /\ (fresh w <= fresh w')%nat /\
  (dir w n = Some i /\ w' = w \/ dir w n = None /\ i = (n, fresh w) /\ fresh w' = S (fresh w) /\ forall j, data w' j = if inode_eqb j i then Cut else data w j).
Proof.
  unfold open_append. destruct (dir w n) as [j|] eqn:D; intros H; injection H as <- <-; cbn.
  - repeat (split; [auto|]). auto.
  - rewrite name_eqb_refl. repeat (split; [reflexivity|]). split; [|split; [lia|]].
    + intros m N. destruct (name_eqb_spec m n); [contradiction|reflexivity].
    + right. repeat split.
Qed.
Lemma open_write_spec n w i w' : open_write n w = (i, w') ->
  procs w' = procs w /\ lock w' = lock w /\ dir w' n = Some i /\ (forall m, m <> n -> dir w' m = dir w m) /\ (fresh w <= fresh w')%nat /\
  (forall j, data w' j = if inode_eqb j i then Cut else data w j) /\
  (dir w n = Some i /\ fresh w' = fresh w \/ dir w n = None /\ i = (n, fresh w) /\ fresh w' = S (fresh w)).
Proof.
  unfold open_write. destruct (open_append n w) as [i0 w0] eqn:O. destruct (open_append_spec _ _ _ _ O) as (P & L & D & Do & F & K).
  intros H. injection H as <- <-. cbn. repeat (split; [assumption|]). split.
  - intros j. destruct (inode_eqb_spec j i0) as [->|N]; auto. destruct K as [[_ ->]|(_ & _ & _ & K)]; auto. rewrite K. destruct (inode_eqb_spec j i0); congruence.
  - destruct K as [[K ->]|(K1 & K2 & K3 & _)]; auto.
Qed.

(** Frame facts, for every kind of step. *)
Ltac step_cases St :=
  destruct St as [sP|sP|sP|sP|sP sP'|sP sD|si sP sD|si ss sP sD sE|ss si sw sP sO|ss si sP sL|ss si sq sP sL|ss si sP sD|ss si sj sP sD|ss si sj sP sD|sr sP sF sS|sr si sP sF sS sD|sr si sP sF sD|sr si sP sF sD|sr sP sF|sr sl sw sgm sP sC sG|sr sk sg sP sF sK|sr sk sP sF sK|sr si sw sP sF sO|sr si sP sF|sr si sP sF sD|si sw sP sO|si sP|sP|sP|sP|si sP sD|si ss sP sD sE];
  try (match goal with G : start_game _ _ _ _ = Some _ |- _ => let k := fresh "k" in let L := fresh "sL" in destruct (start_game_inv _ _ _ _ _ _ G) as (L & k & ->) end);
  try (match goal with O : open_append _ _ = _ |- _ => let A := fresh "oP" in destruct (open_append_spec _ _ _ _ O) as (A & oL & oD & oM & oF & oK) end);
  try (match goal with O : open_write _ _ = _ |- _ => let A := fresh "oP" in destruct (open_write_spec _ _ _ _ O) as (A & oL & oD & oM & oF & oW & oK) end).

Lemma step_procs w p l w' q : step w p l w' -> q <> p -> procs w' q = procs w q.
Proof.
  intros St N. assert (forall w0 x, procs (set_proc p x w0) q = procs w0 q) as K by (intros w0 x; cbn; destruct (Nat.eqb_spec q p); congruence).
  step_cases St; rewrite ?K; try reflexivity; cbn [procs]; try (rewrite oP; reflexivity).
Qed.

Lemma step_lock_other w p l w' q i : step w p l w' -> q <> p -> lock w' i = Some q <-> lock w i = Some q.
Proof.
  intros St N. step_cases St; cbn [lock set_proc set_dir set_data]; try tauto; try (rewrite oL; tauto).
  - unfold release. cbn [lock]. destruct (lock w i) as [r|]; [|tauto]. destruct (Nat.eqb_spec r p); [|tauto]. split; congruence.
  - unfold take_lock. cbn [lock]. destruct (inode_eqb_spec i si) as [->|]; [|tauto]. split; congruence.
Qed.

Lemma step_lock_self w p l w' : step w p l w' -> (forall i, lock w i = Some p <-> holds (procs w p) i) -> forall i, lock w' i = Some p <-> holds (procs w' p) i.
Proof.
  intros St H i0. specialize (H i0). step_cases St; rewrite ?procs_same; cbn [lock set_proc set_dir set_data]; rewrite ?oL; try (rewrite sP in H); cbn [holds with_phase r_log] in *; try tauto.
  - unfold release. cbn [lock]. destruct (lock w i0) as [r|]; [destruct (Nat.eqb_spec r p)|]; split; intros X; try discriminate; try contradiction. congruence.
  - unfold take_lock. cbn [lock]. destruct (inode_eqb_spec i0 si) as [->|N]; [tauto|]. split; [intros X; apply H in X; destruct X|congruence].
  - rewrite sP. cbn [holds]. exact H.
Qed.

Lemma reach_locks w h : reach w h -> forall q i, lock w i = Some q <-> holds (procs w q) i.
Proof.
  intros R. induction R as [|w h p l w' R IH St]; intros q i.
  - cbn. split; [discriminate|intros []].
  - destruct (Nat.eq_dec q p) as [->|N].
    + eapply step_lock_self; eauto.
    + rewrite (step_lock_other _ _ _ _ _ _ St N), (step_procs _ _ _ _ _ St N). apply IH.
Qed.

(** ** What is known of a process's history *)
Definition removed_since (p : nat) (h : list event) : Prop :=
  exists later r between earlier, h = later ++ (r, LogRemoved) :: between ++ (p, LogOpened) :: earlier.
Lemma removed_since_cons p h e : removed_since p h -> removed_since p (e :: h).
Proof. intros (a & r & b & c & ->). exists (e :: a), r, b, c. reflexivity. Qed.

Lemma step_log w p l w' : step w p l w' -> forall i, dir w Log = Some i -> dir w' Log = Some i \/ l = LogRemoved.
Proof.
  intros St i0 D. step_cases St; cbn [dir set_proc set_dir set_data take_lock release name_eqb]; auto; try (left; rewrite oM; [exact D|discriminate]).
  left. destruct oK as [[K ->]|[K _]]; congruence.
Qed.

Lemma opened_unique x i j : opened x i -> opened x j -> i = j.
Proof. destruct x; cbn; congruence || tauto. Qed.
Lemma holds_opened x i : holds x i -> opened x i.
Proof. destruct x; cbn; auto; contradiction. Qed.

(** A process that has opened the log either just did so, or had before. *)
Lemma step_opened w p l w' i : step w p l w' -> opened (procs w' p) i -> (l = LogOpened /\ dir w' Log = Some i) \/ opened (procs w p) i.
Proof.
  intros St. step_cases St; rewrite ?procs_same; cbn [opened holds with_phase r_log]; try (intros []; fail); try (rewrite sP; cbn; auto; fail).
  intros ->. left. split; auto.
Qed.

Lemma reach_log w h : reach w h -> forall p i, opened (procs w p) i -> In (p, LogOpened) h /\ (dir w Log = Some i \/ removed_since p h).
Proof.
  intros R. induction R as [|w h p l w' R IH St]; intros q i H; [destruct H|].
  assert (opened (procs w q) i \/ q = p /\ l = LogOpened /\ dir w' Log = Some i) as [H0|(-> & -> & D)].
  { destruct (Nat.eq_dec q p) as [->|N]; [destruct (step_opened _ _ _ _ _ St H); auto|]. rewrite (step_procs _ _ _ _ _ St N) in H. auto. }
  - destruct (IH _ _ H0) as [I [D|S]].
    + split; [right; auto|]. destruct (step_log _ _ _ _ St _ D) as [D'| ->]; [auto|]. right. apply in_split in I. destruct I as (b & c & ->). exists [], p, b, c. reflexivity.
    + split; [right; auto|]. right. apply removed_since_cons. auto.
  - split; [left; auto|]. auto.
Qed.

(** ** Active runs *)
Lemma active_cons_other p h q l : (q, l) <> (p, Acquired) -> (q, l) <> (p, Ended) -> active p ((q, l) :: h) <-> active p h.
Proof.
  intros N1 N2. split.
  - intros (a & b & E & N). destruct a as [|e a]; cbn in E; inversion E; subst; [congruence|]. exists a, b. split; auto. intros I. apply N. right. auto.
  - intros (a & b & -> & N). exists ((q, l) :: a), b. split; auto. intros [I|I]; [congruence|auto].
Qed.
Lemma active_acquired p h : active p ((p, Acquired) :: h).
Proof. exists [], h. split; auto. Qed.
Lemma active_ended p h : ~ (exists later earlier, h = later ++ (p, Acquired) :: earlier /\ ~ In (p, Ended) later) -> ~ active p h.
Proof. auto. Qed.

Lemma step_holds w p l w' : step w p l w' ->
  (l = Acquired /\ (forall i, ~ holds (procs w p) i) /\ exists i, holds (procs w' p) i) \/
  (l = Ended /\ forall i, ~ holds (procs w' p) i) \/
  (l <> Acquired /\ l <> Ended /\ forall i, holds (procs w' p) i <-> holds (procs w p) i).
Proof.
  intros St. step_cases St; rewrite ?procs_same; try rewrite sP; cbn [holds with_phase r_log];
    try (right; right; split; [|split]; try discriminate; tauto).
  - right. left. auto.
  - left. split; auto. split; [auto|]. eexists. reflexivity.
  - right. right. destruct sL as [->| ->]; split; try discriminate; split; try discriminate; tauto.
Qed.

(** A process takes the lock at most once. *)
Definition past_lock (x : proc) : Prop := match x with Locked _ _ | Removing _ _ | Running _ | Gone => True | _ => False end.
Lemma step_past w p l w' : step w p l w' -> (l = Acquired -> ~ past_lock (procs w p)) /\ (past_lock (procs w p) -> past_lock (procs w' p)) /\ (l = Acquired -> past_lock (procs w' p)) /\ (l = Ended -> procs w' p = Gone) /\ procs w p <> Gone.
Proof.
  intros St. step_cases St; rewrite ?procs_same; try rewrite sP; cbn [past_lock]; repeat split; try discriminate; auto; try tauto; try (destruct sL as [->| ->]; discriminate).
Qed.
Lemma reach_past w h p : reach w h -> In (p, Acquired) h -> past_lock (procs w p).
Proof.
  intros R. induction R as [|w h q l w' R IH St]; intros I; [destruct I|]. destruct (step_past _ _ _ _ St) as (S1 & S2 & S3 & S4 & S5). destruct (Nat.eq_dec p q) as [->|N].
  - destruct I as [I|I]; [injection I as ->; auto|auto].
  - rewrite (step_procs _ _ _ _ _ St N). destruct I as [I|I]; [congruence|auto].
Qed.
Lemma reach_gone w h p : reach w h -> In (p, Ended) h -> procs w p = Gone.
Proof.
  intros R. induction R as [|w h q l w' R IH St]; intros I; [destruct I|]. destruct (step_past _ _ _ _ St) as (S1 & S2 & S3 & S4 & S5). destruct (Nat.eq_dec p q) as [->|N].
  - destruct I as [I|I]; [injection I as ->; auto|]. exfalso. auto.
  - rewrite (step_procs _ _ _ _ _ St N). destruct I as [I|I]; [congruence|auto].
Qed.

Lemma reach_active w h : reach w h -> forall p, active p h <-> exists i, holds (procs w p) i.
Proof.
  intros R. induction R as [|w h q l w' R IH St]; intros p.
  - split; [intros (a & b & E & _); destruct a; discriminate|intros (i & [])].
  - destruct (Nat.eq_dec p q) as [->|N].
    + destruct (step_holds _ _ _ _ St) as [(-> & H1 & H2)|[(-> & H1)|(N1 & N2 & H)]].
      * split; [auto|]. intros _. apply active_acquired.
      * split; [|intros (i & Hi); exfalso; eapply H1; eauto]. intros (a & b & E & NI). destruct a as [|e a]; cbn in E; inversion E; subst. exfalso. apply NI. left. auto.
      * rewrite active_cons_other by congruence. rewrite IH. split; intros (i & Hi); exists i; apply H; auto.
    + rewrite active_cons_other by congruence. rewrite IH, (step_procs _ _ _ _ _ St N). tauto.
Qed.

(** Two active runs: the log file of one has been removed. *)
Lemma C70_exclusion_proof h p q : possible h -> p <> q -> active p h -> active q h -> removed_since p h \/ removed_since q h.
Proof.
  intros Po N Ap Aq. destruct (possible_reach _ Po) as (w & R). apply (reach_active _ _ R) in Ap. apply (reach_active _ _ R) in Aq.
  destruct Ap as (i & Hi). destruct Aq as (j & Hj).
  destruct (reach_log _ _ R p i (holds_opened _ _ Hi)) as [_ [Di|X]]; auto. destruct (reach_log _ _ R q j (holds_opened _ _ Hj)) as [_ [Dj|X]]; auto.
  exfalso. apply (reach_locks _ _ R) in Hi. apply (reach_locks _ _ R) in Hj. assert (i = j) by congruence. subst j. congruence.
Qed.
