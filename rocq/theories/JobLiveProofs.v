(** Controllers that are alive: open, and never closed (C62). *)
From Verif Require Import Base Bytes PyStr Dict BoardModel CommonModel GameplayModel ControllerModel ControllerSpec ControllerProofs
  GtpGameModel EngineModel EngineSpec EngineDialogueProofs JobSgfModel JobRunModel JobRunSpec.

Section Live.
Context {X : Type} (ch : channel X).
Notation ctl := (controller (X * list cevent)).

Definition live (k : ctl) : Prop := reached ch k /\ c_closed k = false /\ existsb is_close (trace k) = false.

(** The step from [k] to [k'], at which the commands [l] were sent. *)
Record step (k k' : ctl) (l : list command) : Prop := mkStep {
  sp_live : live k';
  sp_sent : sent (trace k') = sent (trace k) ++ l;
  sp_more : exists evs, trace k' = trace k ++ evs;
  sp_name : c_name k' = c_name k;
  sp_aliases : c_aliases k' = c_aliases k
}.

Lemma step_refl k : live k -> step k k [].
Proof. intros L. constructor; auto; [symmetry; apply app_nil_r|exists []; symmetry; apply app_nil_r]. Qed.
Lemma step_trans a b c l m : step a b l -> step b c m -> step a c (l ++ m).
Proof.
  intros [A1 A2 (e & A5) A3 A4] [B1 B2 (f & B5) B3 B4]. constructor; auto; try congruence.
  - rewrite B2, A2, app_assoc. reflexivity.
  - exists (e ++ f). rewrite B5, A5, app_assoc. reflexivity.
Qed.

Lemma step_do k k' cmd args r : live k -> do_command (recorded ch) k cmd args = (k', r) ->
  step k k' [(meaning (c_aliases k) cmd, args)] /\ c_known k' = c_known k /\
  exists evs, trace k' = trace k ++ evs /\ outcome (c_name k) (meaning (c_aliases k) cmd) args evs r /\ exchange (meaning (c_aliases k) cmd) args evs.
Proof.
  intros (R & Cl & NC) D. destruct (do_command_open ch k k' cmd args r Cl D) as (evs & T & Ex & O & (N & K & A & E) & Cl' & B).
  split; [|split; [exact K|exists evs; auto]]. constructor; eauto.
  - split; [|split; [exact Cl'|]].
    + eapply (reached_step ch k (Do cmd args)); [exact R|]. cbn [perform]. rewrite D. reflexivity.
    + rewrite T, existsb_app, NC, (exchange_no_close _ _ _ Ex). reflexivity.
  - rewrite T, sent_app, (exchange_sent _ _ _ Ex). reflexivity.
Qed.

Lemma step_safe k k' cmd args r : live k -> safe_do_command (recorded ch) k cmd args = (k', r) -> exists l, step k k' l.
Proof.
  intros (R & Cl & NC) D. assert (reached ch k') as R'.
  { eapply (reached_step ch k (Safe_do cmd args)); [exact R|]. cbn [perform]. rewrite D. reflexivity. }
  destruct (c_bad k) eqn:B.
  - rewrite (safe_do_shut ch k cmd args (or_intror B)) in D. injection D as <- <-. exists []. apply step_refl. split; auto.
  - destruct (safe_do_open ch k k' cmd args r Cl B D) as (evs & T & Ex & O & N & K & A & Cl' & _).
    exists [(meaning (c_aliases k) cmd, args)]. constructor; eauto.
    + split; [exact R'|]. split; [exact Cl'|]. rewrite T, existsb_app, NC, (exchange_no_close _ _ _ Ex). reflexivity.
    + rewrite T, sent_app, (exchange_sent _ _ _ Ex). reflexivity.
Qed.

Lemma step_known_as k k1 k' l : step k k1 l -> reached ch k' -> trace k' = trace k1 -> c_closed k' = c_closed k1 -> c_name k' = c_name k1 ->
  c_aliases k' = c_aliases k1 -> step k k' l.
Proof.
  intros [(R & C & NC) S (e & M) N A] R' T C' N' A'. constructor; auto; try congruence.
  - split; [exact R'|]. split; [congruence|]. rewrite T. exact NC.
  - exists e. congruence.
Qed.

Lemma step_known k k' cmd r : live k -> known_command (recorded ch) k cmd = (k', r) ->
  (exists b, dget cmd (c_known k) = Some b /\ k' = k /\ r = CRet b) \/
  (dget cmd (c_known k) = None /\ step k k' [(meaning (c_aliases k) (str "known_command"), [meaning (c_aliases k) cmd])] /\
   (exists evs, trace k' = trace k ++ evs /\ exchange (meaning (c_aliases k) (str "known_command")) [meaning (c_aliases k) cmd] evs /\
      forall b, r = CRet b -> b = says_yes evs) /\
   (forall m g, r <> CBad m g) /\ forall kd m, r = CChan kd m -> exists text, message_about (c_name k) m text).
Proof.
  intros L D. assert (reached ch k') as R'.
  { eapply (reached_step ch k (Known cmd)); [exact (proj1 L)|]. cbn [perform]. rewrite D. reflexivity. }
  unfold known_command, known_command_with in D. destruct (dget cmd (c_known k)) as [b|]; [injection D as <- <-; left; eauto|].
  right. split; [reflexivity|]. unfold plain_do_command in D.
  destruct (do_command (recorded ch) k (str "known_command") _) as [k1 r1] eqn:E.
  destruct (step_do _ _ _ _ _ L E) as (St & _ & evs & Tr & O & Ex). change (translate (c_aliases k) cmd) with (meaning (c_aliases k) cmd) in *.
  pose proof (outcome_cases _ _ _ _ _ Ex O) as OC.
  assert (T' : trace k' = trace k1) by (destruct r1 as [t|m g|kd m|e]; injection D as <- <-; reflexivity).
  split; [destruct r1 as [t|m g|kd m|e]; injection D as <- <-; eapply step_known_as; eauto|].
  split.
  { exists evs. split; [congruence|]. split; [exact Ex|]. intros b Eb.
    destruct OC as [(k0 & text & msg & _ & _ & Sy & H & _)|[(e & _ & _ & Sy & H & _)|[(text & Ev & H & _)|(text & msg & _ & H & _ & _ & _ & Sy & _)]]];
      subst r1; injection D as <- <-; try discriminate Eb; injection Eb as <-; [|symmetry; exact Sy].
    rewrite Ev. reflexivity. }
  split; [destruct r1 as [t|m g|kd m|e]; injection D as <- <-; discriminate|]. intros k2 m2 Q.
  destruct OC as [(k0 & text & msg & _ & _ & _ & H & M & _)|[(e & _ & _ & _ & H & _)|[(text & _ & H & _)|(text & msg & _ & H & _)]]];
    subst r1; injection D as <- <-; try discriminate Q. injection Q as <- <-. eauto.
Qed.

Lemma step_safe_known k k' cmd r : live k -> safe_known_command (recorded ch) k cmd = (k', r) -> exists l, step k k' l.
Proof.
  intros L D. assert (reached ch k') as R'.
  { eapply (reached_step ch k (Safe_known cmd)); [exact (proj1 L)|]. cbn [perform]. rewrite D. reflexivity. }
  unfold safe_known_command, known_command_with in D. destruct (dget cmd (c_known k)) as [b|]; [injection D as <- <-; exists []; apply step_refl; exact L|].
  destruct (safe_do_command (recorded ch) k (str "known_command") _) as [k1 r1] eqn:E.
  destruct (step_safe _ _ _ _ _ L E) as (l & St). exists l.
  destruct r1 as [t|m g|kd m|e]; injection D as <- <-; eapply step_known_as; eauto.
Qed.

Lemma live_new x name : live (new_controller (x, []) name).
Proof. split; [exists x, name, [], []; constructor|]. split; reflexivity. Qed.

Lemma live_aliases k a : live k -> live (set_gtp_aliases a k).
Proof.
  intros (R & C & N). split; [|split; [exact C|exact N]]. eapply (reached_step ch k (Set_aliases a)); [exact R|reflexivity].
Qed.

(** What goes wrong in a plain command. *)
Lemma wrong_about (k : ctl) cmd args evs r : exchange (meaning (c_aliases k) cmd) args evs -> outcome (c_name k) (meaning (c_aliases k) cmd) args evs r ->
  match r with CBad m _ | CChan _ m => exists text, message_about (c_name k) m text | _ => True end.
Proof.
  intros Ex O. destruct (outcome_cases _ _ _ _ _ Ex O) as [(k0 & text & msg & _ & _ & _ & -> & M & _)|[(e & _ & _ & _ & -> & _)|[(text & _ & -> & _)|(text & msg & _ & -> & M & _)]]]; eauto.
Qed.

(** Greeting an engine whose commands have no aliases. *)
Definition greeted sanitise (name : bytes) (k0 : ctl) (x : ctl * cres engine) : Prop :=
  exists d l, step k0 (fst x) l /\ prefix_of l (greeting d) /\
    match snd x with
    | CRet e => l = greeting d /\ introduced sanitise (trace (fst x)) e
    | CBad m _ | CChan _ m => exists text, message_about name m text
    | CExn e => True
    end.

Lemma greeted_bad sanitise name k0 k l d (r : cres engine) : step k0 k l -> prefix_of l (greeting d) ->
  match r with CBad m _ | CChan _ m => exists text, message_about name m text | CRet _ => False | CExn e => True end ->
  greeted sanitise name k0 (k, r).
Proof. intros S P H. exists d, l. cbn [fst snd]. split; [exact S|]. split; [exact P|]. destruct r; auto. contradiction. Qed.

Lemma greeted_good sanitise name k0 k d n v t : step k0 k (greeting d) ->
  (forall e, new_engine sanitise n v t = Ok e -> introduced sanitise (trace k) e) -> greeted sanitise name k0 (k, of_res (new_engine sanitise n v t)).
Proof.
  intros S N. exists d, (greeting d). cbn [fst snd]. split; [exact S|]. split; [exists []; symmetry; apply app_nil_r|].
  destruct (new_engine sanitise n v t) eqn:E; cbn [of_res]; [eauto|exact I].
Qed.

(** What was said, as a text. *)
Definition text_of (r : cres bytes) : option bytes := match r with CRet t => Some t | _ => None end.
Lemma response_is name u args evs r : exchange u args evs -> outcome name u args evs r -> response_text evs = text_of r.
Proof.
  intros Ex O. inversion Ex as [[k text|e]|[[[|] text]|[k text|e]]]; subst; cbn in O |- *;
    try (destruct O as (msg & -> & _)); try subst r; reflexivity.
Qed.

Lemma greeting_steps sanitise x name : let k0 := new_controller (x, []) name in
  match check_protocol_version (recorded ch) k0 with
  | (k1, CRet _) => greeted sanitise name k0 (from_controller sanitise (recorded ch) k1)
  | (k1, r) => step k0 k1 [(str "protocol_version", [])] /\
      match r with
      | CRet _ | CExn _ => True
      | CBad m _ | CChan _ m => (exists v, m = name ++ str " reports GTP protocol version " ++ v) \/ exists text, message_about name m text
      end
  end.
Proof.
  intros k0. assert (live k0) as L0 by apply live_new.
  unfold check_protocol_version. destruct (do_command (recorded ch) k0 (str "protocol_version") []) as [k1 r1] eqn:D1.
  destruct (step_do _ _ _ _ _ L0 D1) as (S1 & K1 & ev1 & Tr1 & O1 & X1). pose proof (wrong_about _ _ _ _ _ X1 O1) as W1.
  change (c_name k0) with name in *. change (meaning (c_aliases k0) (str "protocol_version")) with (str "protocol_version") in S1.
  assert (Rest : greeted sanitise name k0 (from_controller sanitise (recorded ch) k1)).
  { assert (c_aliases k1 = []) as A1 by (rewrite (sp_aliases _ _ _ S1); reflexivity).
    assert (c_name k1 = name) as N1 by (rewrite (sp_name _ _ _ S1); reflexivity).
    unfold from_controller, try_command.
    destruct (do_command (recorded ch) k1 (str "name") []) as [k2 r2] eqn:D2.
    destruct (step_do _ _ _ _ _ (sp_live _ _ _ S1) D2) as (S2 & K2 & ev2 & Tr2 & O2 & X2). pose proof (response_is _ _ _ _ _ X2 O2) as R2. pose proof (wrong_about _ _ _ _ _ X2 O2) as W2.
    rewrite A1 in S2. change (meaning [] (str "name")) with (str "name") in S2. pose proof (step_trans _ _ _ _ _ S1 S2) as T2. cbn [app] in T2.
    rewrite N1 in W2. assert (c_aliases k2 = []) as A2 by (rewrite (sp_aliases _ _ _ S2); exact A1).
    assert (c_name k2 = name) as N2 by (rewrite (sp_name _ _ _ S2); exact N1).
    destruct (do_command (recorded ch) k2 (str "version") []) as [k3 r3] eqn:D3.
    destruct (step_do _ _ _ _ _ (sp_live _ _ _ S2) D3) as (S3 & K3 & ev3 & Tr3 & O3 & X3). pose proof (response_is _ _ _ _ _ X3 O3) as R3. pose proof (wrong_about _ _ _ _ _ X3 O3) as W3.
    rewrite A2 in S3. change (meaning [] (str "version")) with (str "version") in S3. pose proof (step_trans _ _ _ _ _ T2 S3) as T3. cbn [app] in T3.
    rewrite N2 in W3.
    assert (c_aliases k3 = []) as A3 by (rewrite (sp_aliases _ _ _ S3); exact A2).
    assert (c_name k3 = name) as N3 by (rewrite (sp_name _ _ _ S3); exact N2).
    assert (c_known k3 = []) as Kn by (rewrite K3, K2, K1; reflexivity).
    destruct (known_command (recorded ch) k3 (str "gomill-describe_engine")) as [k4 r4] eqn:D4.
    destruct (step_known _ _ _ _ (sp_live _ _ _ S3) D4) as [(b & H & _)|(_ & S4 & (ev4 & Tr4 & X4 & Sy4) & NB & W4)]; [rewrite Kn in H; discriminate H|].
    rewrite A3 in S4. change (step k3 k4 [(str "known_command", [str "gomill-describe_engine"])]) in S4.
    pose proof (step_trans _ _ _ _ _ T3 S4) as T4. rewrite N3 in W4. cbn [app] in T4. change (step k0 k4 (greeting false)) in T4.
    assert (c_aliases k4 = []) as A4 by (rewrite (sp_aliases _ _ _ S4); exact A3).
    assert (c_name k4 = name) as N4 by (rewrite (sp_name _ _ _ S4); exact N3).
    destruct (do_command (recorded ch) k4 (str "gomill-describe_engine") []) as [k5 r5] eqn:D5.
    destruct (step_do _ _ _ _ _ (sp_live _ _ _ S4) D5) as (S5 & K5 & ev5 & Tr5 & O5 & X5). pose proof (response_is _ _ _ _ _ X5 O5) as R5. pose proof (wrong_about _ _ _ _ _ X5 O5) as W5.
    rewrite A4 in S5. change (step k4 k5 [(str "gomill-describe_engine", [])]) in S5.
    pose proof (step_trans _ _ _ _ _ T4 S5) as T5. rewrite N4 in W5. change (step k0 k5 (greeting true)) in T5.
    assert (Ref : forall d, prefix_of (greeting d) (greeting d)) by (intros d; exists []; symmetry; apply app_nil_r).
    rewrite A1 in X2. rewrite A2 in X3. rewrite A3 in X4. rewrite A4 in X5.
    assert (T4' : trace k4 = ev1 ++ ev2 ++ ev3 ++ ev4) by (rewrite Tr4, Tr3, Tr2, Tr1, <- !app_assoc; reflexivity).
    assert (I4 : r4 = CRet false -> forall e, new_engine sanitise (text_of r2) (text_of r3) None = Ok e -> introduced sanitise (trace k4) e).
    { intros Q e En. exists ev1, ev2, ev3, ev4, [], []. split; [rewrite T4', !app_nil_r; reflexivity|]. split; [exact X1|]. split; [exact X2|]. split; [exact X3|]. split; [exact X4|].
      rewrite <- (Sy4 false Q). split; [reflexivity|]. rewrite R2, R3. exact En. }
    assert (I5 : r4 = CRet true -> forall e, new_engine sanitise (text_of r2) (text_of r3) (text_of r5) = Ok e -> introduced sanitise (trace k5) e).
    { intros Q e En. exists ev1, ev2, ev3, ev4, ev5, []. split; [rewrite Tr5, T4', !app_nil_r, <- !app_assoc; reflexivity|]. split; [exact X1|]. split; [exact X2|]. split; [exact X3|]. split; [exact X4|].
      rewrite <- (Sy4 true Q). split; [exact X5|]. rewrite R2, R3, R5. exact En. }
    assert (Go3 : forall n v, n = text_of r2 -> v = text_of r3 -> greeted sanitise name k0
          (match r4 with
          | CRet true =>
              match (match do_command (recorded ch) k4 (str "gomill-describe_engine") [] with
                | (c', CRet t) => (c', CRet (Some t)) | (c', CBad _ _) => (c', CRet None) | (c', CChan k m) => (c', CChan k m) | (c', CExn e) => (c', CExn e) end) with
              | (c4, CRet d) => (c4, of_res (new_engine sanitise n v d))
              | (c4, CBad m g) => (c4, CBad m g)
              | (c4, CChan k m) => (c4, CChan k m)
              | (c4, CExn e) => (c4, CExn e)
              end
          | CRet false => (k4, of_res (new_engine sanitise n v None))
          | CBad m g => (k4, CBad m g)
          | CChan k m => (k4, CChan k m)
          | CExn e => (k4, CExn e)
          end)).
    { intros n v -> ->. destruct r4 as [[]|m g|kd m|e].
      - rewrite D5. destruct r5 as [t|m g|kd m|e]; cbv iota beta.
        + apply greeted_good with (d := true); [exact T5|exact (I5 eq_refl)].
        + apply greeted_good with (d := true); [exact T5|exact (I5 eq_refl)].
        + apply greeted_bad with (l := greeting true) (d := true); auto.
        + apply greeted_bad with (l := greeting true) (d := true); auto.
      - apply greeted_good with (d := false); [exact T4|exact (I4 eq_refl)].
      - elim (NB m g eq_refl).
      - apply greeted_bad with (l := greeting false) (d := false); auto. exact (W4 kd m eq_refl).
      - apply greeted_bad with (l := greeting false) (d := false); auto. }
    assert (P2 : prefix_of [(str "protocol_version", []); (str "name", [])] (greeting false)) by (eexists; reflexivity).
    assert (P3 : prefix_of [(str "protocol_version", []); (str "name", []); (str "version", [])] (greeting false)) by (eexists; reflexivity).
    destruct r2 as [t|m g|kd m|e]; cbv iota beta.
    - rewrite D3. destruct r3 as [t3|m g|kd m|e]; cbv iota beta; try rewrite D4;
        [exact (Go3 (Some t) (Some t3) eq_refl eq_refl)|exact (Go3 (Some t) None eq_refl eq_refl)|eapply greeted_bad; eauto|eapply greeted_bad; eauto].
    - rewrite D3. destruct r3 as [t3|m3 g3|kd m3|e]; cbv iota beta; try rewrite D4;
        [exact (Go3 None (Some t3) eq_refl eq_refl)|exact (Go3 None None eq_refl eq_refl)|eapply greeted_bad; eauto|eapply greeted_bad; eauto].
    - eapply greeted_bad; eauto.
    - eapply greeted_bad; eauto. }
  destruct r1 as [v|m g|kd m|e]; cbv iota beta.
  - destruct (is_version_2 v); [exact Rest|]. split; [exact S1|]. left. eauto.
  - exact Rest.
  - split; [exact S1|]. right. exact W1.
  - split; [exact S1|exact I].
Qed.

End Live.
