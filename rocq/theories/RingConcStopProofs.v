(** Refused runs, and stop commands (C70). *)
From Verif Require Import Base RingConcModel RingConcSpec RingConcProofs.

Lemma reach_app w a b : reach w (a ++ b) -> exists w0, reach w0 b.
Proof.
  revert w. induction a as [|e a IH]; intros w R; [exists w; exact R|]. cbn [app] in R. inversion R; subst. eapply IH. eauto.
Qed.

(** ** Kinds of inodes *)
Definition kind (n : name) : name := match n with Log => Log | Cmd => Cmd | Status | New => New end.
Definition in_use (w : sys) : Prop :=
  (forall n i, dir w n = Some i -> fst i = kind n /\ (snd i < fresh w)%nat) /\
  (forall q i, procs w q = StopOpen i -> fst i = Cmd /\ (snd i < fresh w)%nat) /\
  (forall q r i, procs w q = Running r -> r_phase r = Reading i -> fst i = Cmd /\ (snd i < fresh w)%nat) /\
  (forall q r i, procs w q = Running r -> r_phase r = Dumping i -> fst i = New /\ (snd i < fresh w)%nat).

Lemma step_fresh w p l w' : step w p l w' -> (fresh w <= fresh w')%nat.
Proof. intros St. step_cases St; cbn [fresh set_proc set_dir set_data take_lock release]; lia. Qed.

Lemma step_dir_kind w p l w' : step w p l w' -> (forall n i, dir w n = Some i -> fst i = kind n /\ (snd i < fresh w)%nat) ->
  forall n i, dir w' n = Some i -> fst i = kind n /\ (snd i < fresh w')%nat.
Proof.
  intros St H n i. pose proof (step_fresh _ _ _ _ St) as LE. assert (forall n i, dir w n = Some i -> fst i = kind n /\ (snd i < fresh w')%nat) as H' by (intros m j D; destruct (H m j D); split; auto; lia).
  step_cases St; cbn [dir set_proc set_dir set_data take_lock release] in *; auto;
    try (intros D; destruct n; cbn [name_eqb] in D; try discriminate; auto; fail).
  - intros D. destruct (name_eqb_spec n Log) as [->|N].
    + rewrite oD in D. assert (si = i) as -> by congruence. destruct oK as [[K ->]|(K & -> & K2 & _)]; auto. cbn [fst snd fresh set_proc kind] in *. split; auto. lia.
    + rewrite oM in D by auto. auto.
  - intros D. destruct (name_eqb_spec n New) as [->|N].
    + rewrite oD in D. assert (si = i) as -> by congruence. destruct oK as [[K _]|(K & -> & K2)]; auto. cbn [fst snd fresh set_proc kind] in *. split; auto. lia.
    + rewrite oM in D by auto. auto.
  - intros D. destruct n; cbn [name_eqb] in D; try discriminate; auto. assert (si = i) as -> by congruence. apply (H' New). auto.
  - intros D. destruct (name_eqb_spec n Cmd) as [->|N].
    + rewrite oD in D. assert (si = i) as -> by congruence. destruct oK as [[K _]|(K & -> & K2)]; auto. cbn [fst snd fresh set_proc kind] in *. split; auto. lia.
    + rewrite oM in D by auto. auto.
Qed.

Lemma step_stop_open w p l w' i : step w p l w' -> procs w' p = StopOpen i -> l = StopOpened /\ dir w' Cmd = Some i.
Proof.
  intros St. step_cases St; rewrite ?procs_same; try discriminate.
  - congruence.
  - intros H. injection H as ->. auto.
Qed.
Lemma step_reading w p l w' r i : step w p l w' -> procs w' p = Running r -> r_phase r = Reading i -> exists r0, procs w p = Running r0 /\ (dir w Cmd = Some i /\ dir w' Cmd = Some i).
Proof.
  intros St. step_cases St; rewrite ?procs_same; try discriminate; try (intros H; injection H as <-; cbn; discriminate).
  - congruence.
  - intros H. injection H as <-. cbn [with_phase r_phase]. intros H. injection H as ->. eauto.
Qed.
Lemma step_dumping w p l w' r i : step w p l w' -> procs w' p = Running r -> r_phase r = Dumping i -> dir w' New = Some i.
Proof.
  intros St. step_cases St; rewrite ?procs_same; try discriminate; try (intros H; injection H as <-; cbn; discriminate).
  - congruence.
  - intros H. injection H as <-. cbn [with_phase r_phase]. intros H. injection H as ->. exact oD.
Qed.

Lemma reach_in_use w h : reach w h -> in_use w.
Proof.
  intros R. induction R as [|w h p l w' R IH St].
  - repeat split; discriminate || (intros; discriminate).
  - destruct IH as (H1 & H2 & H3 & H4). pose proof (step_fresh _ _ _ _ St) as LE. pose proof (step_dir_kind _ _ _ _ St H1) as H1'.
    split; [exact H1'|]. split; [|split].
    + intros q i E. destruct (Nat.eq_dec q p) as [->|N].
      * destruct (step_stop_open _ _ _ _ _ St E) as [_ D]. apply (H1' Cmd). auto.
      * rewrite (step_procs _ _ _ _ _ St N) in E. destruct (H2 _ _ E). split; auto. lia.
    + intros q r i E F. destruct (Nat.eq_dec q p) as [->|N].
      * destruct (step_reading _ _ _ _ _ _ St E F) as (_ & _ & _ & D). apply (H1' Cmd). auto.
      * rewrite (step_procs _ _ _ _ _ St N) in E. destruct (H3 _ _ _ E F). split; auto. lia.
    + intros q r i E F. destruct (Nat.eq_dec q p) as [->|N].
      * pose proof (step_dumping _ _ _ _ _ _ St E F) as D. apply (H1' New). auto.
      * rewrite (step_procs _ _ _ _ _ St N) in E. destruct (H4 _ _ _ E F). split; auto. lia.
Qed.

(** ** Runs without the lock *)
Definition run_proc (x : proc) : Prop :=
  match x with Checking | Loading | Ready _ | Opened _ _ | Locked _ _ | Removing _ _ | Running _ | Gone => True | _ => False end.
Lemma step_run w p l w' : step w p l w' -> (l = Begin Run -> run_proc (procs w' p)) /\ (run_proc (procs w p) -> run_proc (procs w' p)).
Proof.
  intros St. step_cases St; rewrite ?procs_same; try rewrite sP; cbn [run_proc]; split; auto; try discriminate; try (destruct sL as [->| ->]; discriminate).
Qed.
Lemma reach_run w h p : reach w h -> In (p, Begin Run) h -> run_proc (procs w p).
Proof.
  intros R. induction R as [|w h q l w' R IH St]; intros I; [destruct I|]. destruct (step_run _ _ _ _ St) as [S1 S2]. destruct (Nat.eq_dec p q) as [->|N].
  - destruct I as [I|I]; [injection I as ->|]; auto.
  - rewrite (step_procs _ _ _ _ _ St N). destruct I as [I|I]; [congruence|auto].
Qed.

Lemma C70_unlocked_proof sched w h p c l w' : exec start [] sched = Some (w, h) -> In (p, Begin Run) h -> ~ active p h -> act w p c = Some (l, w') ->
  (forall n, n <> Log -> dir w' n = dir w n) /\ (forall n i, n <> Log -> dir w n = Some i -> data w' i = data w i) /\ (forall i q, q <> p -> lock w' i = Some q <-> lock w i = Some q).
Proof.
  intros E I NA A. apply exec_reach in E. apply act_step in A. pose proof (reach_run _ _ _ E I) as RP. destruct (reach_in_use _ _ E) as (U1 & _).
  assert (forall i, ~ holds (procs w p) i) as NH by (intros i Hi; apply NA, (reach_active _ _ E); eauto).
  split; [|split; [|intros i q N; apply step_lock_other with (1 := A); auto]].
  - intros n Nn. step_cases A; cbn [dir set_proc set_dir set_data take_lock release]; auto; try (exfalso; first [rewrite sP in RP; contradiction|rewrite sP in NH; eapply NH; reflexivity]).
  - intros n i Nn D. step_cases A; cbn [data set_proc set_dir set_data take_lock release]; auto; try (exfalso; first [rewrite sP in RP; contradiction|rewrite sP in NH; eapply NH; reflexivity]).
    destruct oK as [[_ ->]|(K & -> & _ & K2)]; auto. rewrite K2. destruct (inode_eqb_spec i (Log, fresh w)) as [->|]; auto. exfalso. destruct (U1 _ _ D) as [_ X]. cbn in X. lia.
Qed.

(** All that a refused run does. *)
Definition unlocked_label (l : label) : Prop := match l with Begin Run | Loaded _ | LogOpened | Refused | Tau => True | _ => False end.
Definition before_lock (x : proc) : Prop := match x with Checking | Loading | Ready _ | Opened _ _ => True | _ => False end.
Lemma step_before w p l w' : step w p l w' -> (before_lock (procs w' p) \/ l = Refused) -> (procs w p = Unborn \/ before_lock (procs w p)) /\ unlocked_label l.
Proof.
  intros St. step_cases St; rewrite ?procs_same; try rewrite sP; cbn [before_lock unlocked_label]; intros [H|H]; try contradiction; try discriminate; auto;
    try (destruct sL as [->| ->]; discriminate).
Qed.
Lemma reach_unborn w h p : reach w h -> procs w p = Unborn -> forall l, ~ In (p, l) h.
Proof.
  intros R. induction R as [|w h q l w' R IH St]; intros U l0 I; [destruct I|]. destruct (Nat.eq_dec p q) as [->|N].
  - assert (procs w' q <> Unborn) as X; [|contradiction]. clear I U. step_cases St; rewrite ?procs_same; congruence.
  - rewrite (step_procs _ _ _ _ _ St N) in U. destruct I as [I|I]; [congruence|]. eapply IH; eauto.
Qed.
Lemma reach_before w h p : reach w h -> before_lock (procs w p) -> forall l, In (p, l) h -> unlocked_label l.
Proof.
  intros R. induction R as [|w h q l w' R IH St]; intros B l0 I; [destruct I|]. destruct (Nat.eq_dec p q) as [->|N].
  - destruct (step_before _ _ _ _ St (or_introl B)) as [[U|B'] L].
    + destruct I as [I|I]; [injection I as <-; auto|]. exfalso. eapply reach_unborn; eauto.
    + destruct I as [I|I]; [injection I as <-; auto|]. apply IH; auto.
  - rewrite (step_procs _ _ _ _ _ St N) in B. destruct I as [I|I]; [congruence|]. apply IH; auto.
Qed.
Lemma reach_refused w h p : reach w h -> In (p, Refused) h -> procs w p = Gone /\ forall l, In (p, l) h -> unlocked_label l.
Proof.
  intros R. induction R as [|w h q l w' R IH St]; intros I; [destruct I|]. destruct (step_past _ _ _ _ St) as (_ & _ & _ & _ & NG). destruct (Nat.eq_dec p q) as [->|N].
  - destruct I as [I|I]; [|destruct (IH I); contradiction]. injection I as ->. destruct (step_before _ _ _ _ St (or_intror eq_refl)) as [[U|B] _].
    + exfalso. inversion St; subst; try congruence; try (destruct (start_game_inv _ _ _ _ _ _ H1) as [[|] _]; discriminate).
    + split.
      * inversion St; subst; try (rewrite procs_same; reflexivity). destruct (start_game_inv _ _ _ _ _ _ H1) as [[|] _]; discriminate.
      * intros l0 [I|I]; [injection I as <-; exact Logic.I|]. eapply reach_before; eauto.
  - rewrite (step_procs _ _ _ _ _ St N). destruct I as [I|I]; [congruence|]. destruct (IH I) as [G H]. split; auto. intros l0 [J|J]; [congruence|auto].
Qed.

(** ** Stop commands *)
Definition opened_since (p q : nat) (h : list event) : Prop := exists a b c, h = a ++ (q, StopOpened) :: b ++ (p, Go) :: c.
Definition stopped_since (p : nat) (h : list event) : Prop := exists a q b c d, h = a ++ (q, StopWritten) :: b ++ (q, StopOpened) :: c ++ (p, Go) :: d.
Lemma opened_since_cons p q h e : opened_since p q h -> opened_since p q (e :: h).
Proof. intros (a & b & c & ->). exists (e :: a), b, c. reflexivity. Qed.
Lemma stopped_since_cons p h e : stopped_since p h -> stopped_since p (e :: h).
Proof. intros (a & q & b & c & d & ->). exists (e :: a), q, b, c, d. reflexivity. Qed.

Lemma step_cmd w p l w' : step w p l w' ->
  dir w' Cmd = dir w Cmd \/ dir w' Cmd = None \/
  (l = StopOpened /\ dir w Cmd = None /\ dir w' Cmd = Some (Cmd, fresh w) /\ data w' (Cmd, fresh w) = Cut /\ procs w' p = StopOpen (Cmd, fresh w)).
Proof.
  intros St. step_cases St; cbn [dir data set_proc set_dir set_data take_lock release name_eqb]; auto; try (left; rewrite oM; [reflexivity|discriminate]).
  destruct oK as [[K _]|(K & -> & _)]; [left; congruence|]. right. right. rewrite oW, inode_eqb_refl. repeat (split; [auto; fail|]). cbn. rewrite Nat.eqb_refl. reflexivity.
Qed.
Lemma step_data_stop w p l w' i : step w p l w' -> data w' i = Stop -> data w i = Stop \/ (l = StopWritten /\ procs w p = StopOpen i).
Proof.
  intros St. step_cases St; cbn [data set_proc set_dir set_data take_lock release]; auto; try (rewrite oW; destruct (inode_eqb_spec i si); auto; discriminate).
  - destruct oK as [[_ ->]|(_ & _ & _ & K)]; auto. rewrite K. destruct (inode_eqb_spec i si); auto. discriminate.
  - destruct (inode_eqb_spec i si); auto. discriminate.
  - destruct (inode_eqb_spec i si) as [->|]; auto.
Qed.
Lemma step_running w p l w' r' : step w p l w' -> procs w' p = Running r' ->
  (l = Go /\ dir w' Cmd = None /\ r_phase r' = Idle /\ r_stopping r' = false /\ exists s i, procs w p = Locked s i \/ procs w p = Removing s i) \/
  (l <> Go /\ exists r, procs w p = Running r /\ (forall i, r_phase r' = Reading i -> r_phase r = Reading i \/ (dir w Cmd = Some i)) /\
    (r_stopping r = true -> r_stopping r' = true) /\
    (r_stopping r' = true -> r_stopping r = true \/ l = Halted) /\
    (r_phase r' = Found \/ (exists i, r_phase r' = Reading i) -> r_stopping r' = false \/ r_phase r = Found \/ r = r') /\
    (r_phase r' = Unlinking -> r_stopping r' = true \/ r = r')).
Proof.
  intros St. step_cases St; rewrite ?procs_same; try discriminate; intros H; try (injection H as <-); cbn [dir data set_proc set_dir set_data take_lock release name_eqb r_phase r_stopping with_phase]; eauto 10;
    try (right; split; [discriminate|exists sr; split; [assumption|]; split; [intros i X; try discriminate X; try (injection X as <-); auto|]; split; [auto|]; split; [auto|]; split; [intros [X|[i X]]; try discriminate X; auto|intros X; try discriminate X; auto]]).
  - right. split; [discriminate|]. exists r'. split; [exact H|]. split; [auto|]. repeat (split; [auto; fail|]). auto.
  - right. split; [destruct sL as [->| ->]; discriminate|]. exists sr. split; [assumption|]. split; [intros i X; discriminate X|]. split; [auto|]. split; [auto|]. split; [intros [X|[i X]]; discriminate X|intros X; discriminate X].
Qed.

(** In [get_job] the command file is only looked at by a run that isn't stopping. *)
Lemma reach_phases w h : reach w h -> forall p r, procs w p = Running r ->
  (r_phase r = Found \/ (exists i, r_phase r = Reading i) -> r_stopping r = false) /\ (r_phase r = Unlinking -> r_stopping r = true).
Proof.
  intros R. induction R as [|w h q l w' R IH St]; intros p r E; [discriminate|]. destruct (Nat.eq_dec p q) as [->|N].
  - destruct (step_running _ _ _ _ _ St E) as [(_ & _ & F & S & _)|(_ & r0 & E0 & _ & _ & S2 & S3 & S4)].
    + rewrite F. split; [auto|discriminate].
    + destruct (IH _ _ E0) as [I1 I2]. split.
      * intros H. destruct (S3 H) as [X|[X|X]]; auto; [|subst; auto]. destruct (r_stopping r) eqn:Z; auto. destruct (S2 eq_refl) as [Y|Y].
        -- rewrite I1 in Y by auto. discriminate.
        -- subst l. exfalso. inversion St; subst; try congruence; try (destruct (start_game_inv _ _ _ _ _ _ H2) as [[|] _]; discriminate).
      * intros H. destruct (S4 H) as [X|X]; auto. subst. auto.
  - rewrite (step_procs _ _ _ _ _ St N) in E. eapply IH. exact E.
Qed.

Lemma reach_go w h p r : reach w h -> procs w p = Running r -> In (p, Go) h.
Proof.
  intros R. revert r. induction R as [|w h q l w' R IH St]; intros r E; [discriminate|]. destruct (Nat.eq_dec p q) as [->|N].
  - destruct (step_running _ _ _ _ _ St E) as [(-> & _)|(_ & r0 & E0 & _)]; [left; auto|right; eauto].
  - rewrite (step_procs _ _ _ _ _ St N) in E. right. eauto.
Qed.

(** What a running competition can find in the command file was written since it began. *)
Definition relevant (w : sys) (r : running) (i : inode) : Prop := dir w Cmd = Some i \/ r_phase r = Reading i.
Lemma reach_recent w h : reach w h -> forall p r i, procs w p = Running r -> relevant w r i ->
  (data w i = Stop -> stopped_since p h) /\ (forall q, procs w q = StopOpen i -> opened_since p q h).
Proof.
  intros R. induction R as [|w h q l w' R IH St]; intros p r i E V; [discriminate|].
  destruct (reach_in_use _ _ R) as (_ & U2 & _).
  assert ((exists r0, procs w p = Running r0 /\ relevant w r0 i) \/ (i = (Cmd, fresh w) /\ data w' i = Cut /\ l = StopOpened /\ exists r0, procs w p = Running r0)) as K.
  { assert ((l = Go /\ p = q /\ dir w' Cmd = None /\ r_phase r = Idle) \/ exists r0, procs w p = Running r0 /\ forall i, r_phase r = Reading i -> r_phase r0 = Reading i \/ dir w Cmd = Some i) as [(-> & -> & D & F)|(r0 & E0 & H0)].
    { destruct (Nat.eq_dec p q) as [->|N].
      - destruct (step_running _ _ _ _ _ St E) as [(A & B & C & _)|(_ & r0 & A & B & _)]; [left; auto|right; eauto].
      - rewrite (step_procs _ _ _ _ _ St N) in E. right. eauto. }
    - destruct V as [V|V]; congruence.
    - destruct V as [V|V].
      + destruct (step_cmd _ _ _ _ St) as [D|[D|(-> & D & D2 & D3 & D4)]]; [left; exists r0; split; auto; left; congruence|congruence|].
        right. assert (i = (Cmd, fresh w)) as -> by congruence. eauto.
      + left. exists r0. split; auto. destruct (H0 _ V); [right|left]; auto. }
  destruct K as [(r0 & E0 & V0)|(-> & DC & -> & r0 & E0)].
  - destruct (IH _ _ _ E0 V0) as [I1 I2]. split.
    + intros D. destruct (step_data_stop _ _ _ _ _ St D) as [D0|[-> S]]; [apply stopped_since_cons; auto|].
      destruct (I2 _ S) as (a & b & c & ->). exists [], q, a, b, c. reflexivity.
    + intros s S. destruct (Nat.eq_dec s q) as [->|N].
      * destruct (step_stop_open _ _ _ _ _ St S) as [-> _]. pose proof (reach_go _ _ _ _ R E0) as G. apply in_split in G. destruct G as (b & c & ->). exists [], b, c. reflexivity.
      * rewrite (step_procs _ _ _ _ _ St N) in S. apply opened_since_cons. auto.
  - split; [intros D; congruence|]. intros s S. destruct (Nat.eq_dec s q) as [->|N].
    + pose proof (reach_go _ _ _ _ R E0) as G. apply in_split in G. destruct G as (b & c & ->). exists [], b, c. reflexivity.
    + rewrite (step_procs _ _ _ _ _ St N) in S. destruct (U2 _ _ S) as [_ X]. cbn in X. lia.
Qed.

Lemma halted_step w p w' : step w p Halted w' -> exists r i, procs w p = Running r /\ r_phase r = Reading i /\ data w i = Stop.
Proof. intros St. inversion St; subst; eauto. destruct (start_game_inv _ _ _ _ _ _ H1) as [[|] _]; discriminate. Qed.
Lemma started_step w p w' : step w p Started w' -> exists r, procs w p = Running r /\
  (r_phase r = Idle /\ r_stopping r = false /\ dir w Cmd = None \/ r_phase r = Found /\ dir w Cmd = None \/ exists i, r_phase r = Reading i /\ data w i <> Stop).
Proof. intros St. inversion St; subst; eauto. Qed.

Lemma C70_no_stale_proof later p earlier : possible (later ++ (p, Halted) :: earlier) -> stopped_since p earlier.
Proof.
  intros Po. destruct (possible_reach _ Po) as (w & R). apply reach_app in R. destruct R as (w0 & R). inversion R as [|w1 h1 p1 l1 w2 R1 St]; subst.
  destruct (halted_step _ _ _ St) as (r & i & E & F & D). eapply reach_recent; eauto. right. exact F.
Qed.

Lemma reach_halted w h p : reach w h -> In (p, Halted) h -> procs w p = Gone \/ exists r, procs w p = Running r /\ r_stopping r = true.
Proof.
  intros R. induction R as [|w h q l w' R IH St]; intros I; [destruct I|]. destruct (Nat.eq_dec p q) as [->|N].
  - destruct I as [I|I].
    + injection I as ->. right. inversion St; subst; [rewrite procs_same; eauto|]. destruct (start_game_inv _ _ _ _ _ _ H1) as [[|] _]; discriminate.
    + destruct (IH I) as [G|(r & E & S)]; [exfalso; eapply step_past; eauto|]. destruct (procs w' q) eqn:X; auto; try (exfalso; clear - St E X; step_cases St; rewrite ?procs_same in X; congruence).
      right. destruct (step_running _ _ _ _ _ St X) as [(_ & _ & _ & _ & s & i & [Y|Y])|(_ & r1 & E1 & _ & S1 & _)]; try congruence. exists r0. split; auto. apply S1. congruence.
  - rewrite (step_procs _ _ _ _ _ St N). destruct I as [I|I]; [congruence|auto].
Qed.
Lemma C70_halted_proof later p earlier : possible (later ++ (p, Halted) :: earlier) -> ~ In (p, Started) later.
Proof.
  intros Po. destruct (possible_reach _ Po) as (w & R). intros I. apply in_split in I. destruct I as (a & b & ->). rewrite <- app_assoc in R. apply reach_app in R.
  destruct R as (w0 & R). cbn [app] in R. inversion R as [|w1 h1 p1 l1 w2 R1 St]; subst. destruct (started_step _ _ _ St) as (r & E & C).
  destruct (reach_halted _ _ p R1) as [G|(r0 & E0 & S)]; [apply in_or_app; right; left; auto|congruence|]. assert (r0 = r) as -> by congruence.
  destruct (reach_phases _ _ R1 _ _ E) as [X _]. destruct C as [(_ & C & _)|[[C _]|(i & C & _)]]; [congruence| |]; rewrite X in S; try discriminate; eauto.
Qed.
