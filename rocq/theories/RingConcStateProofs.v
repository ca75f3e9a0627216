(** Stop commands that arrive, and the saved state (C70). *)
From Verif Require Import Base RingConcModel RingConcSpec RingConcProofs RingConcStopProofs.

(** ** Without a reset *)
Definition reset_proc (x : proc) : Prop := match x with ResetLog | ResetStatus | ResetCmd => True | _ => False end.
Definition reset_label (l : label) : Prop := match l with LogRemoved | StatusRemoved | CmdRemoved => True | _ => False end.
Lemma step_reset w p l w' : step w p l w' -> (reset_proc (procs w' p) -> l = Begin Reset \/ reset_proc (procs w p)) /\ (reset_label l -> reset_proc (procs w p)).
Proof.
  intros St. step_cases St; rewrite ?procs_same; try rewrite sP; cbn [reset_proc reset_label]; split; auto; try contradiction; try (destruct sL as [->| ->]; cbn; contradiction).
Qed.
Lemma no_reset_cons e h : no_reset (e :: h) -> no_reset h /\ forall r, e <> (r, Begin Reset).
Proof. intros H. split; [intros r I; apply (H r); right; auto|]. intros r ->. apply (H r). left. auto. Qed.
Lemma reach_no_reset w h : reach w h -> no_reset h -> forall p, ~ reset_proc (procs w p).
Proof.
  intros R. induction R as [|w h q l w' R IH St]; intros NR p X; [destruct X|]. apply no_reset_cons in NR. destruct NR as [NR NB]. destruct (step_reset _ _ _ _ St) as [S1 _]. destruct (Nat.eq_dec p q) as [->|N].
  - destruct (S1 X) as [->|Y]; [eapply NB; eauto|]. eapply IH; eauto.
  - rewrite (step_procs _ _ _ _ _ St N) in X. eapply IH; eauto.
Qed.
Lemma no_reset_label w h : reach w h -> no_reset h -> forall p l, In (p, l) h -> ~ reset_label l.
Proof.
  intros R. induction R as [|w h q l w' R IH St]; intros NR p l0 I X; [destruct I|]. apply no_reset_cons in NR. destruct NR as [NR NB]. destruct (step_reset _ _ _ _ St) as [_ S2]. destruct I as [I|I].
  - injection I as <- <-. eapply reach_no_reset; eauto.
  - eapply IH; eauto.
Qed.
Lemma no_removed w h p : reach w h -> no_reset h -> ~ removed_since p h.
Proof. intros R NR (a & r & b & c & ->). eapply (no_reset_label _ _ R NR r LogRemoved); [|exact Logic.I]. apply in_or_app. right. left. auto. Qed.

Lemma one_holder w h p q i j : reach w h -> no_reset h -> holds (procs w p) i -> holds (procs w q) j -> p = q.
Proof.
  intros R NR Hp Hq. destruct (reach_log _ _ R p i (holds_opened _ _ Hp)) as [_ [Di|X]]; [|exfalso; eapply no_removed; eauto].
  destruct (reach_log _ _ R q j (holds_opened _ _ Hq)) as [_ [Dj|X]]; [|exfalso; eapply no_removed; eauto].
  apply (reach_locks _ _ R) in Hp. apply (reach_locks _ _ R) in Hq. assert (i = j) by congruence. subst j. congruence.
Qed.

(** ** A stop command arrives *)
(** The command file goes away only by a reset, by a run beginning, or by a run that is stopping. *)
Lemma step_cmd_kept w p l w' : step w p l w' ->
  dir w' Cmd = dir w Cmd \/ dir w Cmd = None \/ (l = Go /\ exists s i, procs w p = Removing s i) \/ reset_label l \/ (exists r, procs w p = Running r /\ r_phase r = Unlinking).
Proof.
  intros St. step_cases St; cbn [dir data set_proc set_dir set_data take_lock release name_eqb reset_label]; auto; try (left; rewrite oM; [reflexivity|discriminate]); eauto 10.
  destruct oK as [[K _]|(K & -> & _)]; [left; congruence|]. auto.
Qed.

Lemma cmd_kept w h q l w' p r i : reach w h -> no_reset ((q, l) :: h) -> step w q l w' -> procs w p = Running r -> r_stopping r = false -> dir w Cmd = Some i -> dir w' Cmd = Some i.
Proof.
  intros R NR St E S D. pose proof (no_reset_cons _ _ NR) as [NR' _]. destruct (step_cmd_kept _ _ _ _ St) as [X|[X|[(-> & s & j & X)|[X|(r0 & X & F)]]]]; try congruence.
  - exfalso. assert (p = q) as ->. { eapply one_holder; [exact R|exact NR'| |]; [rewrite E; reflexivity|rewrite X; reflexivity]. } congruence.
  - exfalso. apply (no_reset_label _ _ (reach_step _ _ _ _ _ R St) NR q l); [left; auto|exact X].
  - exfalso. assert (p = q) as ->. { eapply one_holder; [exact R|exact NR'| |]; [rewrite E; reflexivity|rewrite X; reflexivity]. }
    assert (r0 = r) as -> by congruence. destruct (reach_phases _ _ R _ _ E) as [_ Y]. rewrite Y in S by auto. discriminate.
Qed.

(** A run that goes on in the new state went on in the old one, or just began. *)
Lemma running_before w h q l w' p r : reach w h -> step w q l w' -> procs w' p = Running r -> r_stopping r = false ->
  (exists r0, procs w p = Running r0 /\ r_stopping r0 = false) \/ ((q, l) = (p, Go) /\ ~ In (p, Go) h).
Proof.
  intros R St E S. destruct (Nat.eq_dec p q) as [->|N].
  - destruct (step_running _ _ _ _ _ St E) as [(-> & _ & _ & _ & s & i & X)|(_ & r0 & E0 & _ & S1 & _)].
    + right. split; auto. intros I. assert (forall w h p, reach w h -> In (p, Go) h -> procs w p = Gone \/ exists r, procs w p = Running r) as K.
      { clear. intros w h p R. induction R as [|w h q l w' R IH St]; intros I; [destruct I|]. destruct (Nat.eq_dec p q) as [->|N].
        - destruct I as [I|I].
          + injection I as ->. right. inversion St; subst; try (rewrite procs_same; eauto). destruct (start_game_inv _ _ _ _ _ _ H1) as [[|] _]; discriminate.
          + destruct (IH I) as [G|(r & E)]; [exfalso; eapply step_past; eauto|]. step_cases St; rewrite ?procs_same; eauto; congruence.
        - rewrite (step_procs _ _ _ _ _ St N). destruct I as [I|I]; [congruence|auto]. }
      destruct (K _ _ _ R I) as [Y|(r1 & Y)]; destruct X as [X|X]; congruence.
    + left. exists r0. split; auto. destruct (r_stopping r0); auto. rewrite S1 in S; auto.
  - rewrite (step_procs _ _ _ _ _ St N) in E. left. eauto.
Qed.

Lemma opened_since_inv p q e h : opened_since p q (e :: h) -> (e = (q, StopOpened) /\ In (p, Go) h) \/ opened_since p q h.
Proof.
  intros (a & b & c & E). destruct a as [|x a]; cbn in E; inversion E; subst; [left; split; auto; apply in_or_app; right; left; auto|]. right. exists a, b, c. reflexivity.
Qed.
Lemma opened_since_go p q h : opened_since p q h -> In (p, Go) h.
Proof. intros (a & b & c & ->). apply in_or_app. right. right. apply in_or_app. right. left. auto. Qed.

(** A stop process that has opened the command file since the run began is writing the file the run
    will look at. *)
Lemma reach_linked w h : reach w h -> no_reset h -> forall p r q i, procs w p = Running r -> r_stopping r = false -> opened_since p q h -> procs w q = StopOpen i -> dir w Cmd = Some i.
Proof.
  intros R. induction R as [|w h q0 l w' R IH St]; intros NR p r q i E S O P; [discriminate|]. pose proof (no_reset_cons _ _ NR) as [NR' _].
  destruct (running_before _ _ _ _ _ _ _ R St E S) as [(r0 & E0 & S0)|(X & NG)].
  - destruct (Nat.eq_dec q q0) as [->|N].
    + destruct (step_stop_open _ _ _ _ _ St P) as [_ D]. exact D.
    + rewrite (step_procs _ _ _ _ _ St N) in P. apply opened_since_inv in O. destruct O as [[X _]|O]; [congruence|]. eapply cmd_kept; eauto.
  - exfalso. injection X as -> ->. apply opened_since_inv in O. destruct O as [[X _]|O]; [congruence|]. apply NG. eapply opened_since_go; eauto.
Qed.

Lemma step_data_kept w h p l w' i : reach w h -> step w p l w' -> fst i = Cmd -> l <> StopOpened -> (snd i < fresh w)%nat -> data w i = Stop -> data w' i = Stop.
Proof.
  intros R St F NL LT D. destruct (reach_in_use _ _ R) as (U1 & U2 & _ & U4). step_cases St; cbn [data set_proc set_dir set_data take_lock release]; auto; try congruence.
  - destruct oK as [[_ ->]|(_ & -> & _ & K)]; auto. rewrite K. destruct (inode_eqb_spec i (Log, fresh w)) as [->|]; auto. discriminate F.
  - rewrite oW. destruct (inode_eqb_spec i si) as [->|]; auto. exfalso. destruct oK as [[K _]|(_ & -> & _)]; [|discriminate F]. destruct (U1 _ _ K) as [X _]. cbn in X. congruence.
  - destruct (inode_eqb_spec i si) as [->|]; auto. exfalso. destruct (U4 _ _ _ sP sF) as [X _]. congruence.
  - destruct (inode_eqb_spec i si); auto.
Qed.

Lemma app_cons_inv {A} (b : list A) x c e h : e :: h = b ++ x :: c -> (b = [] /\ e = x /\ h = c) \/ exists b', b = e :: b' /\ h = b' ++ x :: c.
Proof. destruct b as [|y b]; cbn; intros H; inversion H; subst; [left; auto|right; eauto]. Qed.

(** Once a stop command has been written, it is there until the run sees it. *)
Lemma reach_pending w h : reach w h -> no_reset h -> forall p r q b c, procs w p = Running r -> r_stopping r = false ->
  h = b ++ (q, StopWritten) :: c -> opened_since p q c -> (forall r, ~ In (r, StopOpened) b) -> exists i, dir w Cmd = Some i /\ data w i = Stop.
Proof.
  intros R. induction R as [|w h q0 l w' R IH St]; intros NR p r q b c E S Eh O NS; [destruct b; discriminate|]. pose proof (no_reset_cons _ _ NR) as [NR' _].
  destruct (running_before _ _ _ _ _ _ _ R St E S) as [(r0 & E0 & S0)|(X & NG)].
  - apply app_cons_inv in Eh. destruct Eh as [(-> & X & <-)|(b' & -> & ->)].
    + injection X as -> ->. inversion St as [| | | | | | | | | | | | | | | | | | |r1 l1 w1 g1 H1 H2 H3| | | | | | |i P| | | | |]; subst; [destruct (start_game_inv _ _ _ _ _ _ H3) as [[|] _]; discriminate|].
      exists i. cbn. rewrite inode_eqb_refl. split; auto. eapply reach_linked; eauto.
    + destruct (IH NR' p r0 q b' c E0 S0 eq_refl O) as (i & D & DS); [intros s I; apply (NS s); right; auto|].
      exists i. split; [eapply cmd_kept; eauto|]. destruct (reach_in_use _ _ R) as (U1 & _). destruct (U1 _ _ D) as [K LT]. eapply step_data_kept; eauto. intros ->. apply (NS q0). left. auto.
  - exfalso. injection X as -> ->. apply app_cons_inv in Eh. destruct Eh as [(_ & X & _)|(b' & _ & ->)]; [discriminate|].
    apply NG. apply in_or_app. right. right. eapply opened_since_go; eauto.
Qed.

(** A run that is reading the command file reads the one that is there. *)
Lemma reach_reading w h : reach w h -> no_reset h -> forall p r i, procs w p = Running r -> r_phase r = Reading i -> dir w Cmd = Some i.
Proof.
  intros R. induction R as [|w h q l w' R IH St]; intros NR p r i E F; [discriminate|]. pose proof (no_reset_cons _ _ NR) as [NR' _]. destruct (Nat.eq_dec p q) as [->|N].
  - destruct (step_reading _ _ _ _ _ _ St E F) as (_ & _ & _ & D). exact D.
  - rewrite (step_procs _ _ _ _ _ St N) in E. destruct (reach_phases _ _ R _ _ E) as [X _]. eapply cmd_kept; eauto.
Qed.

Lemma C70_stop_arrives_proof later p b q c d e : no_reset (later ++ (p, Started) :: b ++ (q, StopWritten) :: c ++ (q, StopOpened) :: d ++ (p, Go) :: e) ->
  possible (later ++ (p, Started) :: b ++ (q, StopWritten) :: c ++ (q, StopOpened) :: d ++ (p, Go) :: e) -> exists r, In (r, StopOpened) b.
Proof.
  intros NR Po. destruct (possible_reach _ Po) as (w & R). apply reach_app in R. destruct R as (w0 & R). inversion R as [|w1 h1 p1 l1 w2 R1 St]; subst.
  assert (no_reset (b ++ (q, StopWritten) :: c ++ (q, StopOpened) :: d ++ (p, Go) :: e)) as NR1 by (intros r I; apply (NR r); apply in_or_app; right; right; exact I).
  destruct (existsb (fun ev : event => match snd ev with StopOpened => true | _ => false end) b) eqn:X.
  { apply existsb_exists in X. destruct X as ([r l] & I & L). destruct l; try discriminate. eauto. }
  exfalso. destruct (started_step _ _ _ St) as (r & E & C).
  assert (r_stopping r = false) as S. { destruct (reach_phases _ _ R1 _ _ E) as [Y _]. destruct C as [(_ & C & _)|[[C _]|(i & C & _)]]; eauto. }
  destruct (reach_pending _ _ R1 NR1 p r q b (c ++ (q, StopOpened) :: d ++ (p, Go) :: e) E S eq_refl) as (i & D & DS).
  - exists c, d, e. reflexivity.
  - intros s I. assert (existsb (fun ev : event => match snd ev with StopOpened => true | _ => false end) b = true) as Y; [|congruence]. apply existsb_exists. exists (s, StopOpened). auto.
  - destruct C as [(_ & _ & C)|[[_ C]|(j & F & C)]]; try congruence. pose proof (reach_reading _ _ R1 NR1 _ _ _ E F). congruence.
Qed.

(** ** The saved state *)
Inductive effect (w : sys) (p : nat) (l : label) (w' : sys) : Prop :=
| e_none : dir w' New = dir w New -> dir w' Status = dir w Status -> (forall i, fst i = New -> data w' i = data w i) -> (forall s, l <> Wrote s) ->
    (forall r, procs w' p = Running r -> (forall i, r_phase r <> Dumping i) /\ r_phase r <> Renaming \/ procs w' p = procs w p) -> effect w p l w'
| e_save r i : procs w p = Running r -> procs w' p = Running (with_phase r (Dumping i)) -> r_phase r = Saving -> dir w' New = Some i -> dir w' Status = dir w Status ->
    (dir w New = Some i \/ i = (New, fresh w)) -> (forall j, data w' j = if inode_eqb j i then Cut else data w j) -> l = Tau -> effect w p l w'
| e_dump r i : procs w p = Running r -> r_phase r = Dumping i -> procs w' p = Running (with_phase r Renaming) -> dir w' New = dir w New -> dir w' Status = dir w Status ->
    (forall j, data w' j = if inode_eqb j i then State (r_state r) else data w j) -> l = Tau -> effect w p l w'
| e_rename r i : procs w p = Running r -> r_phase r = Renaming -> procs w' p = Running (with_phase r Idle) -> dir w New = Some i -> dir w' New = None -> dir w' Status = Some i ->
    data w' = data w -> l = Wrote (r_state r) -> effect w p l w'.

Lemma step_effect w p l w' : step w p l w' -> in_use w -> ~ reset_label l -> effect w p l w'.
Proof.
  intros St (U1 & U2 & _) NL. step_cases St; try (exfalso; apply NL; exact Logic.I);
    try (apply e_none; rewrite ?procs_same; cbn [dir data set_proc set_dir set_data take_lock release name_eqb]; auto; try discriminate;
         try (intros r0 X; injection X as <-; left; cbn; split; [intros i X; discriminate X|discriminate]); fail).
  - apply e_none; rewrite ?procs_same; cbn [dir data set_proc]; auto; try discriminate; try (apply oM; discriminate).
    intros i F. destruct oK as [[_ ->]|(_ & -> & _ & K)]; auto. rewrite K. destruct (inode_eqb_spec i (Log, fresh w)) as [->|]; auto. discriminate F.
  - apply e_none; rewrite ?procs_same; cbn [dir data set_proc set_dir]; auto; try discriminate. destruct sL as [->| ->]; discriminate.
    intros r0 X; injection X as <-; left; cbn; split; [intros i X; discriminate X|discriminate].
  - eapply e_save; rewrite ?procs_same; cbn [dir data set_proc]; eauto; try (apply oM; discriminate). destruct oK as [[K _]|(_ & K & _)]; auto.
  - eapply e_dump; rewrite ?procs_same; cbn [dir data set_proc set_data]; eauto.
  - eapply e_rename; rewrite ?procs_same; cbn [dir data set_proc set_dir name_eqb]; eauto.
  - apply e_none; rewrite ?procs_same; cbn [dir data set_proc]; auto; try discriminate; try (apply oM; discriminate).
    intros i F. rewrite oW. destruct (inode_eqb_spec i si) as [->|]; auto. exfalso. destruct oK as [[K _]|(_ & -> & _)]; [|discriminate F]. destruct (U1 _ _ K) as [X _]. cbn in X. congruence.
  - apply e_none; rewrite ?procs_same; cbn [dir data set_proc set_data]; auto; try discriminate.
    intros i F. destruct (inode_eqb_spec i si) as [->|]; auto. exfalso. destruct (U2 _ _ sP) as [X _]. congruence.
Qed.

Definition value (h : list event) (s : list Z) : Prop := saved h s \/ (s = [] /\ forall p s', ~ In (p, Wrote s') h).
Lemma saved_wrote p s h : saved ((p, Wrote s) :: h) s.
Proof. exists [], p, h. split; auto. Qed.
Lemma saved_other p l h s : (forall s', l <> Wrote s') -> saved ((p, l) :: h) s <-> saved h s.
Proof.
  intros N. split.
  - intros (a & q & b & E & F). apply app_cons_inv in E. destruct E as [(_ & X & _)|(a' & -> & ->)]; [injection X as _ X; exfalso; eapply N; exact X|]. exists a', q, b. split; auto. intros q' s' I. eapply F. right. exact I.
  - intros (a & q & b & -> & F). exists ((p, l) :: a), q, b. split; auto. intros q' s' [I|I]; [injection I as _ I; eapply N; exact I|eapply F; exact I].
Qed.
Lemma value_other p l h s : (forall s', l <> Wrote s') -> value ((p, l) :: h) s <-> value h s.
Proof.
  intros N. unfold value. rewrite saved_other by exact N. split; (intros [H|[-> H]]; [left; exact H|right; split; [reflexivity|]]).
  - intros q s' I. eapply H. right. exact I.
  - intros q s' [I|I]; [injection I as _ I; eapply N; exact I|eapply H; exact I].
Qed.
Lemma saved_unique h s s' : saved h s -> saved h s' -> s = s'.
Proof.
  intros (a & p & b & -> & F) H. revert H. induction a as [|[q l] a IH]; cbn [app].
  - intros (a' & p' & b' & E & F'). apply app_cons_inv in E. destruct E as [(_ & E & _)|(a'' & -> & _)]; [congruence|]. exfalso. eapply F'. left. reflexivity.
  - intros H. apply IH; [intros q' s0 I; eapply F; right; exact I|]. apply saved_other in H; auto. intros s0 ->. eapply F. left. reflexivity.
Qed.
Lemma value_unique h s s' : value h s -> value h s' -> s = s'.
Proof.
  intros [H|[-> H]] [H'|[-> H']]; auto; [eapply saved_unique; eauto| |]; exfalso; [destruct H as (a & p & b & -> & _); apply (H' p s)|destruct H' as (a & p & b & -> & _); apply (H p s')]; apply in_or_app; right; left; auto.
Qed.

Record state_inv (w : sys) (h : list event) : Prop := mkSI {
  si_apart : forall i, dir w New = Some i -> dir w Status <> Some i;
  si_dump : forall p r i, procs w p = Running r -> r_phase r = Dumping i -> dir w New = Some i;
  si_rename : forall p r, procs w p = Running r -> r_phase r = Renaming -> exists i, dir w New = Some i /\ data w i = State (r_state r);
  si_cur : (dir w Status = None /\ forall p s, ~ In (p, Wrote s) h) \/ exists j s, dir w Status = Some j /\ data w j = State s /\ saved h s
}.

Lemma reach_state w h : reach w h -> no_reset h -> state_inv w h.
Proof.
  intros R. induction R as [|w h p l w' R IH St]; intros NR.
  - constructor; try discriminate. left. split; auto.
  - pose proof (no_reset_cons _ _ NR) as [NR' _]. destruct (IH NR') as [A D N C]. pose proof (reach_in_use _ _ R) as U. destruct (reach_in_use _ _ R) as (U1 & _).
    assert (~ reset_label l) as NL by (apply (no_reset_label _ _ (reach_step _ _ _ _ _ R St) NR p); left; auto).
    assert (forall q r, q <> p -> procs w' q = Running r -> procs w q = Running r) as O by (intros q r Nq X; rewrite <- (step_procs _ _ _ _ _ St Nq); exact X).
    assert (forall q r r0, q <> p -> procs w q = Running r -> procs w p = Running r0 -> False) as One.
    { intros q r r0 Nq X Y. apply Nq. eapply one_holder; [exact R|exact NR'| |]; [rewrite X|rewrite Y]; reflexivity. }
    destruct (step_effect _ _ _ _ St U NL) as [E1 E2 E3 E4 E5|r i P P' F E1 E2 K DD ->|r i P F P' E1 E2 DD ->|r i P F P' E1 E2 E3 DD ->].
    + constructor.
      * rewrite E1, E2. exact A.
      * intros q r i X F. rewrite E1. destruct (Nat.eq_dec q p) as [->|Nq]; [|eapply D; eauto]. destruct (E5 _ X) as [[Y _]|Y]; [exfalso; eapply Y; exact F|]. eapply D; [rewrite <- Y; exact X|exact F].
      * intros q r X F. rewrite E1.
        assert (procs w q = Running r) as X0. { destruct (Nat.eq_dec q p) as [->|Nq]; [|eapply O; eauto]. destruct (E5 _ X) as [[_ Y]|Y]; [contradiction|congruence]. }
        destruct (N _ _ X0 F) as (i & G1 & G2). exists i. split; auto. rewrite E3; auto. apply (U1 _ _ G1).
      * rewrite E2. destruct C as [[C1 C2]|(j & s & C1 & C2 & C3)].
        -- left. split; auto. intros q s [I|I]; [injection I as _ I; eapply E4; exact I|eapply C2; exact I].
        -- right. exists j, s. split; auto. split; [rewrite E3; auto; apply (U1 _ _ C1)|]. apply saved_other; auto.
    + constructor.
      * rewrite E1, E2. intros j X. assert (j = i) as -> by congruence. destruct K as [K| ->]; [apply A; auto|]. intros Y. destruct (U1 _ _ Y) as [_ Z]. cbn in Z. lia.
      * intros q r0 j X G. destruct (Nat.eq_dec q p) as [->|Nq]; [|exfalso; eapply One; eauto]. rewrite P' in X. injection X as <-. cbn in G. injection G as <-. exact E1.
      * intros q r0 X G. destruct (Nat.eq_dec q p) as [->|Nq]; [|exfalso; eapply One; eauto]. rewrite P' in X. injection X as <-. discriminate G.
      * rewrite E2. destruct C as [[C1 C2]|(j & s & C1 & C2 & C3)].
        -- left. split; auto. intros q s [I|I]; [discriminate I|eapply C2; exact I].
        -- right. exists j, s. split; auto. split; [|apply saved_other; [discriminate|auto]]. rewrite DD. destruct (inode_eqb_spec j i) as [->|]; auto. exfalso.
           destruct K as [K| ->]; [eapply A; eauto|]. destruct (U1 _ _ C1) as [_ Z]. cbn in Z. lia.
    + pose proof (D _ _ _ P F) as DN. constructor.
      * rewrite E1, E2. exact A.
      * intros q r0 j X G. destruct (Nat.eq_dec q p) as [->|Nq]; [|exfalso; eapply One; eauto]. rewrite P' in X. injection X as <-. discriminate G.
      * intros q r0 X G. destruct (Nat.eq_dec q p) as [->|Nq]; [|exfalso; eapply One; eauto]. rewrite P' in X. injection X as <-. exists i. rewrite E1. split; auto. rewrite DD, inode_eqb_refl. reflexivity.
      * rewrite E2. destruct C as [[C1 C2]|(j & s & C1 & C2 & C3)].
        -- left. split; auto. intros q s [I|I]; [discriminate I|eapply C2; exact I].
        -- right. exists j, s. split; auto. split; [|apply saved_other; [discriminate|auto]]. rewrite DD. destruct (inode_eqb_spec j i) as [->|]; auto. exfalso. eapply A; eauto.
    + constructor.
      * rewrite E2. discriminate.
      * intros q r0 j X G. destruct (Nat.eq_dec q p) as [->|Nq]; [|exfalso; eapply One; eauto]. rewrite P' in X. injection X as <-. discriminate G.
      * intros q r0 X G. destruct (Nat.eq_dec q p) as [->|Nq]; [|exfalso; eapply One; eauto]. rewrite P' in X. injection X as <-. discriminate G.
      * right. destruct (N _ _ P F) as (j & G1 & G2). assert (j = i) as -> by congruence. exists i, (r_state r). split; auto. split; [rewrite DD; exact G2|]. apply saved_wrote.
Qed.

Lemma shown_step w p s w' : step w p (Shown s) w' -> exists i, dir w Status = Some i /\ data w i = State s.
Proof. intros St. inversion St; subst; eauto. destruct (start_game_inv _ _ _ _ _ _ H1) as [[|] _]; discriminate. Qed.
Lemma loaded_step w p s w' : step w p (Loaded s) w' -> (dir w Status = None /\ s = []) \/ exists i, dir w Status = Some i /\ data w i = State s.
Proof. intros St. inversion St; subst; eauto. destruct (start_game_inv _ _ _ _ _ _ H1) as [[|] _]; discriminate. Qed.

Lemma no_reset_app a b : no_reset (a ++ b) -> no_reset b.
Proof. intros H r I. apply (H r). apply in_or_app. auto. Qed.

Lemma C70_shown_proof later p s earlier : no_reset (later ++ (p, Shown s) :: earlier) -> possible (later ++ (p, Shown s) :: earlier) -> saved earlier s.
Proof.
  intros NR Po. destruct (possible_reach _ Po) as (w & R). apply reach_app in R. apply no_reset_app in NR. apply no_reset_cons in NR. destruct NR as [NR _]. destruct R as (w0 & R). inversion R as [|w1 h1 p1 l1 w2 R1 St]; subst.
  destruct (shown_step _ _ _ _ St) as (i & D & DS). destruct (si_cur _ _ (reach_state _ _ R1 NR)) as [[C _]|(j & s' & C1 & C2 & C3)]; [congruence|]. assert (s = s') as -> by congruence. exact C3.
Qed.
Lemma reach_loaded w h p s w' : reach w h -> no_reset h -> step w p (Loaded s) w' -> value h s.
Proof.
  intros R NR St. destruct (si_cur _ _ (reach_state _ _ R NR)) as [[C C']|(j & s' & C1 & C2 & C3)]; destruct (loaded_step _ _ _ _ St) as [[D ->]|(i & D & DS)]; try congruence.
  - right. auto.
  - left. assert (s = s') as -> by congruence. exact C3.
Qed.

(** ** Nothing counted is lost *)
Lemma undisturbed_cons e h : undisturbed (e :: h) -> undisturbed h.
Proof. intros H a p b s c -> q s' I. eapply (H (e :: a)); [reflexivity|exact I]. Qed.

Definition pre_state (x : proc) : option (list Z) := match x with Ready s => Some s | Opened s _ => Some s | _ => None end.
Definition held_state (x : proc) : option (list Z) := match x with Locked s _ | Removing s _ => Some s | Running r => Some (r_state r) | _ => None end.

Lemma step_pre w p l w' s : step w p l w' -> pre_state (procs w' p) = Some s -> l = Loaded s \/ pre_state (procs w p) = Some s.
Proof. intros St. step_cases St; rewrite ?procs_same; try rewrite sP; cbn [pre_state]; try discriminate; auto; intros H; injection H as <-; auto. Qed.
Lemma step_held w p l w' s : step w p l w' -> held_state (procs w' p) = Some s ->
  (l = Acquired /\ pre_state (procs w p) = Some s) \/ (exists s0 g, l = Counted g /\ held_state (procs w p) = Some s0 /\ s = s0 ++ [g]) \/ held_state (procs w p) = Some s.
Proof.
  intros St. step_cases St; rewrite ?procs_same; try rewrite sP; cbn [pre_state held_state with_phase r_state]; try discriminate; auto; intros H; injection H as <-; eauto 10.
Qed.

Lemma value_app a h s : (forall q s', ~ In (q, Wrote s') a) -> value h s -> value (a ++ h) s.
Proof.
  induction a as [|[q l] a IH]; intros N V; [exact V|]. cbn [app]. apply value_other; [intros s' ->; eapply N; left; reflexivity|]. apply IH; auto. intros q' s' I. eapply N. right. exact I.
Qed.

Record growth (w : sys) (h : list event) : Prop := mkGr {
  g_pre : forall p s, pre_state (procs w p) = Some s -> exists a b, h = a ++ (p, Loaded s) :: b /\ value b s;
  g_held : forall p s, held_state (procs w p) = Some s -> exists v more, value h v /\ s = v ++ more;
  g_all : forall p s v, In (p, Wrote s) h -> value h v -> exists more, v = s ++ more
}.
Lemma wrote_step w p s w' : step w p (Wrote s) w' -> exists r, procs w p = Running r /\ s = r_state r /\ procs w' p = Running (with_phase r Idle).
Proof. intros St. inversion St; subst; [destruct (start_game_inv _ _ _ _ _ _ H1) as [[|] _]; discriminate|]. exists r. rewrite procs_same. auto. Qed.
Lemma label_wrote l : (exists s, l = Wrote s) \/ forall s, l <> Wrote s.
Proof. destruct l; try (right; discriminate). left. eauto. Qed.
Lemma held_holds x s : held_state x = Some s -> exists i, holds x i.
Proof. destruct x; cbn; try discriminate; eauto. Qed.

Lemma reach_growth w h : reach w h -> no_reset h -> undisturbed h -> growth w h.
Proof.
  intros R. induction R as [|w h p l w' R IH St]; intros NR UD.
  - constructor; try discriminate. intros p s v [].
  - pose proof (no_reset_cons _ _ NR) as [NR' _]. destruct (IH NR' (undisturbed_cons _ _ UD)) as [Pr He Al].
    assert (forall q s, pre_state (procs w' q) = Some s -> exists a b, (p, l) :: h = a ++ (q, Loaded s) :: b /\ value b s) as Pr'.
    { intros q s H. assert (pre_state (procs w q) = Some s \/ (p, l) = (q, Loaded s)) as [H0|E].
      { destruct (Nat.eq_dec q p) as [->|N]; [destruct (step_pre _ _ _ _ _ St H) as [->|]; auto|]. rewrite (step_procs _ _ _ _ _ St N) in H. auto. }
      - destruct (Pr _ _ H0) as (a & b & -> & V). exists ((p, l) :: a), b. auto.
      - injection E as -> ->. exists [], h. split; auto. eapply reach_loaded; eauto. }
    destruct (label_wrote l) as [[s0 ->]|NW].
    + destruct (wrote_step _ _ _ _ St) as (r & E & -> & E'). constructor.
      * exact Pr'.
      * intros q s H. assert (q = p) as ->.
        { destruct (Nat.eq_dec q p) as [|N]; auto. exfalso. rewrite (step_procs _ _ _ _ _ St N) in H. apply N. destruct (held_holds _ _ H) as (i & Hi). eapply one_holder; [exact R|exact NR'|exact Hi|]. rewrite E. reflexivity. }
        rewrite E' in H. cbn in H. injection H as <-. exists (r_state r), []. split; [left; apply saved_wrote|rewrite app_nil_r; reflexivity].
      * intros q s v I V. assert (v = r_state r) as -> by (eapply value_unique; [exact V|left; apply saved_wrote]).
        destruct I as [I|I]; [injection I as _ <-; exists []; rewrite app_nil_r; reflexivity|].
        destruct (He p (r_state r)) as (v0 & more & V0 & ->); [rewrite E; reflexivity|]. destruct (Al _ _ _ I V0) as (m & ->). exists (m ++ more). rewrite app_assoc. reflexivity.
    + constructor.
      * exact Pr'.
      * intros q s H. assert (held_state (procs w q) = Some s \/ (exists s0 g, held_state (procs w q) = Some s0 /\ s = s0 ++ [g]) \/ (q = p /\ l = Acquired /\ pre_state (procs w p) = Some s)) as [H0|[(s0 & g & H0 & ->)|(-> & -> & H0)]].
        { destruct (Nat.eq_dec q p) as [->|N]; [destruct (step_held _ _ _ _ _ St H) as [[]|[(s0 & g & _ & X & Y)|]]; eauto 10|]. rewrite (step_procs _ _ _ _ _ St N) in H. auto. }
        -- destruct (He _ _ H0) as (v & more & V & ->). exists v, more. split; auto. apply value_other; auto.
        -- destruct (He _ _ H0) as (v & more & V & ->). exists v, (more ++ [g]). split; [apply value_other; auto|rewrite app_assoc; reflexivity].
        -- destruct (Pr _ _ H0) as (a & b & -> & V). exists s, []. split; [|rewrite app_nil_r; reflexivity]. apply value_other; [discriminate|].
           apply value_app; [|apply value_other; [discriminate|exact V]]. intros q s'. eapply (UD [] p a s b). reflexivity.
      * intros q s v I V. apply value_other in V; auto. destruct I as [I|I]; [injection I as _ I; exfalso; eapply NW; exact I|]. eapply Al; eauto.
Qed.

Lemma C70_grows_proof later q s2 earlier p s1 : no_reset (later ++ (q, Wrote s2) :: earlier) -> undisturbed (later ++ (q, Wrote s2) :: earlier) ->
  possible (later ++ (q, Wrote s2) :: earlier) -> In (p, Wrote s1) earlier -> exists more, s2 = s1 ++ more.
Proof.
  intros NR UD Po I. destruct (possible_reach _ Po) as (w & R). apply reach_app in R. apply no_reset_app in NR.
  assert (undisturbed ((q, Wrote s2) :: earlier)) as UD' by (clear - UD; induction later as [|e a IH]; auto; apply IH; eapply undisturbed_cons; exact UD).
  destruct R as (w0 & R). eapply (g_all _ _ (reach_growth _ _ R NR UD')); [right; exact I|left; apply saved_wrote].
Qed.

(** A result that has been counted is saved before the run does anything else. *)
Definition saving (r : running) : Prop := match r_phase r with Saving | Dumping _ | Renaming => True | _ => False end.
Definition quiet (p : nat) (a : list event) : Prop := forall l, In (p, l) a -> l = Tau \/ l = Ended.
Lemma step_saving w p l w' r : step w p l w' -> procs w p = Running r -> saving r ->
  (l = Tau /\ exists r', procs w' p = Running r' /\ saving r' /\ r_state r' = r_state r) \/ (l = Ended /\ procs w' p = Gone) \/ l = Wrote (r_state r).
Proof.
  intros St E S. unfold saving in *. step_cases St; try congruence; rewrite ?procs_same; try (assert (sr = r) as -> by congruence); try (rewrite sF in S; destruct S; fail); auto.
  - exfalso. destruct sC as [(C & _)|[(C & _)|(i & C & _)]]; rewrite C in S; destruct S.
  - left. split; auto. eexists. split; [reflexivity|]. split; [exact Logic.I|reflexivity].
  - left. split; auto. eexists. split; [reflexivity|]. split; [exact Logic.I|reflexivity].
Qed.
Lemma reach_counted w h : reach w h -> forall p g a b, h = a ++ (p, Counted g) :: b ->
  (exists s, In (p, Wrote s) a /\ In g s) \/ (quiet p a /\ (procs w p = Gone \/ exists r, procs w p = Running r /\ saving r /\ In g (r_state r))).
Proof.
  intros R. induction R as [|w h q l w' R IH St]; intros p g a b E; [destruct a; discriminate|]. apply app_cons_inv in E. destruct E as [(-> & E & ->)|(a' & -> & ->)].
  - injection E as -> ->. right. split; [intros l []|]. right. inversion St; subst; [destruct (start_game_inv _ _ _ _ _ _ H1) as [[|] _]; discriminate|].
    rewrite procs_same. eexists. split; [reflexivity|]. split; [exact Logic.I|]. cbn. apply in_or_app. right. left. auto.
  - destruct (IH p g a' b eq_refl) as [(s & I & G)|[Q H]]; [left; exists s; split; [right|]; auto|].
    destruct (Nat.eq_dec p q) as [->|N].
    + destruct H as [H|(r & E & S & G)]; [exfalso; eapply step_past; eauto|]. destruct (step_saving _ _ _ _ _ St E S) as [(-> & r' & E' & S' & G')|[(-> & E')| ->]].
      * right. split; [intros l [I|I]; [injection I as <-; auto|auto]|]. right. exists r'. rewrite G'. auto.
      * right. split; [intros l [I|I]; [injection I as <-; auto|auto]|]. auto.
      * left. exists (r_state r). split; [left; auto|auto].
    + right. rewrite (step_procs _ _ _ _ _ St N). split; auto. intros l0 [I|I]; [congruence|auto].
Qed.
Lemma C70_counted_proof later p g earlier : possible (later ++ (p, Counted g) :: earlier) -> (exists s, In (p, Wrote s) later /\ In g s) \/ (forall l, In (p, l) later -> l = Tau \/ l = Ended).
Proof. intros Po. destruct (possible_reach _ Po) as (w & R). destruct (reach_counted _ _ R p g later earlier eq_refl) as [H|[H _]]; auto. Qed.
