(** Proofs about Gtp_controller. *)
From Verif Require Import Base Bytes PyStr Dict GtpModel ControllerModel ControllerSpec.

Section Proofs.
Context {X : Type}.
Variable ch : channel X.
Notation ctl := (controller (X * list cevent)).

Local Opaque channel_message failure_message closing_message.

(** Everything but the channel and [is_first_command]. *)
Definition same_but_channel (c c' : ctl) : Prop :=
  c_name c' = c_name c /\ c_known c' = c_known c /\ c_aliases c' = c_aliases c /\ c_errors c' = c_errors c.

Lemma channel_message_about sending k cmd name text :
  message_about name (channel_message sending k cmd name text) text.
Proof.
  Local Transparent channel_message. unfold message_about, channel_message, colon_lf. destruct sending.
  - exists (error_label k ++ str " sending " ++ cmd ++ str " to "). rewrite <- !app_assoc. reflexivity.
  - exists (error_label k ++ str " reading response to " ++ cmd ++ str " from "). rewrite <- !app_assoc. reflexivity.
Qed.
Lemma failure_message_about cmd name text : message_about name (failure_message cmd name text) text.
Proof.
  Local Transparent failure_message. exists (str "failure response from " ++ cmd ++ str " to "). unfold failure_message, colon_lf.
  rewrite <- !app_assoc. reflexivity.
Qed.
Lemma closing_message_about name text : message_about name (closing_message name text) text.
Proof. Local Transparent closing_message. exists (str "error closing "). unfold closing_message, colon_lf. rewrite <- !app_assoc. reflexivity. Qed.

Local Opaque channel_message failure_message closing_message.

Lemma do_command_open (c c' : ctl) cmd args r :
  c_closed c = false -> do_command (recorded ch) c cmd args = (c', r) ->
  exists evs, trace c' = trace c ++ evs /\ exchange (meaning (c_aliases c) cmd) args evs /\
    outcome (c_name c) (meaning (c_aliases c) cmd) args evs r /\
    same_but_channel c c' /\ c_closed c' = false /\
    c_bad c' = c_bad c || (match texts low_level_error evs with [] => false | _ => true end).
Proof.
  intros Op. unfold do_command. rewrite Op. cbv zeta. cbn [recorded ch_send ch_get].
  change (translate (c_aliases c) cmd) with (meaning (c_aliases c) cmd).
  set (u := meaning (c_aliases c) cmd).
  change (c_chan (not_first c)) with (c_chan c).
  destruct (ch_send ch (fst (c_chan c)) u args) as [x1 [[k text|e]|]] eqn:S1.
  - intros H; injection H as <- <-.
    exists [EvSend u args (Some (XChan k text))]. split; [reflexivity|]. split; [|split; [|split; [|split]]].

    + constructor.
    + eexists; split; [reflexivity|apply channel_message_about].
    + repeat split.
    + exact Op.
    + cbn. rewrite orb_true_r. reflexivity.
  - intros H; injection H as <- <-.
    exists [EvSend u args (Some (XOther e))]. split; [reflexivity|]. split; [|split; [reflexivity|split; [|split]]].

    + constructor.
    + repeat split.
    + exact Op.
    + cbn. rewrite orb_false_r. reflexivity.
  - cbn [fst snd]. destruct (ch_get ch x1) as [x2 [[[|] text]|[k text|e]]] eqn:S2; intros H; injection H as <- <-.
    all: match goal with |- exists evs, _ /\ _ /\ outcome _ _ _ evs ?r /\ _ =>
           match type of S2 with _ = (_, ?g) => exists [EvSend u args None; EvGet g] end end.
    all: split; [cbn; rewrite <- app_assoc; reflexivity|]; split; [constructor|].
    all: split; [cbn; try reflexivity; eexists; (split; [reflexivity|]);
                 first [apply failure_message_about|apply channel_message_about]|].
    all: split; [repeat split|]; split; [exact Op|].
    all: cbn; rewrite ?orb_true_r, ?orb_false_r; reflexivity.
Qed.

Lemma do_command_closed (c : ctl) cmd args :
  c_closed c = true -> do_command (recorded ch) c cmd args = (c, CExn standard_error).
Proof. intros E. unfold do_command. rewrite E. reflexivity. Qed.

(** The six shapes of an exchange. *)
Lemma outcome_cases name u args evs r : exchange u args evs -> outcome name u args evs r ->
  (exists k text msg, texts low_level_error evs = [text] /\ existsb unexpected evs = false /\ says_yes evs = false /\
     r = CChan k msg /\ message_about name msg text /\ texts trouble evs = [text]) \/
  (exists e, texts low_level_error evs = [] /\ existsb unexpected evs = true /\ says_yes evs = false /\
     r = CExn e /\ texts trouble evs = []) \/
  (exists text, evs = [EvSend u args None; EvGet (inl (false, text))] /\ r = CRet text /\
     texts low_level_error evs = [] /\ existsb unexpected evs = false /\ texts trouble evs = []) \/
  (exists text msg, evs = [EvSend u args None; EvGet (inl (true, text))] /\ r = CBad msg (Some (u, args, text)) /\
     message_about name msg text /\ texts low_level_error evs = [] /\ existsb unexpected evs = false /\
     says_yes evs = false /\ texts trouble evs = [text]).
Proof.
  intros Ex O. inversion Ex as [[k text|e]|[[[|] text]|[k text|e]]]; subst; cbn in O.
  - left. destruct O as (msg & -> & M). exists k, text, msg. repeat split; auto.
  - right; left. exists e. repeat split; auto.
  - right; right; right. destruct O as (msg & -> & M). exists text, msg. repeat split; auto.
  - right; right; left. exists text. repeat split; auto.
  - left. destruct O as (msg & -> & M). exists k, text, msg. repeat split; auto.
  - right; left. exists e. repeat split; auto.
Qed.

Definition bad_after (b : bool) (evs : list cevent) : bool :=
  b || (match texts low_level_error evs with [] => false | _ => true end).

Definition safe_outcome (name u : bytes) (args : list bytes) (evs : list cevent) (r : cres (option bytes)) : Prop :=
  exists r0, outcome name u args evs r0 /\
    r = match r0 with CRet t => CRet (Some t) | CBad m g => CBad m g | CChan _ _ => CRet None | CExn e => CExn e end.

Lemma safe_do_open (c c' : ctl) cmd args r :
  c_closed c = false -> c_bad c = false -> safe_do_command (recorded ch) c cmd args = (c', r) ->
  exists evs, trace c' = trace c ++ evs /\ exchange (meaning (c_aliases c) cmd) args evs /\
    safe_outcome (c_name c) (meaning (c_aliases c) cmd) args evs r /\
    c_name c' = c_name c /\ c_known c' = c_known c /\ c_aliases c' = c_aliases c /\ c_closed c' = false /\
    c_bad c' = bad_after (c_bad c) evs /\
    exists new, c_errors c' = c_errors c ++ new /\ Forall2 (message_about (c_name c)) new (texts low_level_error evs).
Proof.
  intros Op Nb. unfold safe_do_command. rewrite Op, Nb. cbn [orb].
  destruct (do_command (recorded ch) c cmd args) as [c1 r1] eqn:D.
  destruct (do_command_open c c1 cmd args r1 Op D) as (evs & T & Ex & O & (N & K & A & E) & Cl & B).
  intros H. exists evs.
  destruct (outcome_cases _ _ _ _ _ Ex O) as [(k & text & msg & L & U & Sy & -> & M & _)|[(e & L & U & Sy & -> & _)|
    [(text & Ee & -> & L & _)|(text & msg & Ee & -> & M & L & _)]]].
  - injection H as <- <-. do 2 (split; [assumption|]). split; [eexists; split; [exact O|reflexivity]|].
    do 4 (split; [assumption|]). split; [rewrite Nb in B; exact B|].
    exists [msg]. split; [cbn; rewrite E; reflexivity|]. rewrite L. constructor; [exact M|constructor].
  - injection H as <- <-. do 2 (split; [assumption|]). split; [eexists; split; [exact O|reflexivity]|].
    do 4 (split; [assumption|]). split; [rewrite Nb in B; exact B|].
    exists []. split; [rewrite app_nil_r; assumption|]. rewrite L. constructor.
  - injection H as <- <-. do 2 (split; [assumption|]). split; [eexists; split; [exact O|reflexivity]|].
    do 4 (split; [assumption|]). split; [rewrite Nb in B; exact B|].
    exists []. split; [rewrite app_nil_r; assumption|]. rewrite L. constructor.
  - injection H as <- <-. do 2 (split; [assumption|]). split; [eexists; split; [exact O|reflexivity]|].
    do 4 (split; [assumption|]). split; [rewrite Nb in B; exact B|].
    exists []. split; [rewrite app_nil_r; assumption|]. rewrite L. constructor.
Qed.

Lemma safe_do_shut (c : ctl) cmd args :
  c_closed c = true \/ c_bad c = true -> safe_do_command (recorded ch) c cmd args = (c, CRet None).
Proof. intros [E|E]; unfold safe_do_command; rewrite E; cbn; rewrite ?orb_true_r; reflexivity. Qed.


Lemma bad_after_nil b : bad_after b [] = b.
Proof. unfold bad_after. cbn. apply orb_false_r. Qed.

Lemma exchange_no_close u args evs : exchange u args evs -> existsb is_close evs = false.
Proof. intros E; inversion E; reflexivity. Qed.

Lemma texts_app f a b : texts f (a ++ b) = texts f a ++ texts f b.
Proof. induction a as [|x a IH]; cbn; [reflexivity|]. destruct (f x); cbn; rewrite IH; reflexivity. Qed.

Lemma bad_after_app b x y : bad_after b (x ++ y) = bad_after (bad_after b x) y.
Proof.
  unfold bad_after. rewrite texts_app. destruct b; cbn; [reflexivity|].
  destruct (texts low_level_error x); reflexivity.
Qed.

(** Everything one needs to know about the effect of a call. *)
Record effect (o : call) (c c' : ctl) (evs : list cevent) : Prop := mkEffect {
  ef_trace : trace c' = trace c ++ evs;
  ef_name : c_name c' = c_name c;
  ef_bad : c_bad c' = bad_after (c_bad c) evs;
  ef_errors : exists new, c_errors c' = c_errors c ++ new /\
    Forall2 (message_about (c_name c)) new
      (match o with
       | Safe_do _ _ | Safe_known _ => texts low_level_error evs
       | Safe_close => texts trouble evs
       | _ => []
       end);
  ef_aliases : c_aliases c' = match o with Set_aliases a => a | _ => c_aliases c end;
  ef_known : forall k b, dget k (c_known c) = Some b -> dget k (c_known c') = Some b;
  ef_known_new : forall k b, dget k (c_known c') = Some b ->
    dget k (c_known c) = Some b \/ asks o k;
  ef_closed : c_closed c = true -> evs = [] /\ c_closed c' = true;
  ef_closing : c_closed c = false -> c_closed c' = true ->
    exists evs0 x, evs = evs0 ++ [EvClose x] /\ existsb is_close evs0 = false;
  ef_open : c_closed c' = false -> forall x, In (EvClose x) evs -> x <> None;
  ef_open_safe : c_closed c' = false -> o <> Close -> existsb unexpected evs = false ->
    existsb is_close evs = false
}.

Lemma no_close_in evs : existsb is_close evs = false -> forall x, In (EvClose x) evs -> x <> None.
Proof.
  intros E x I. assert (existsb is_close evs = true) by (apply existsb_exists; exists (EvClose x); split; [exact I|reflexivity]).
  congruence.
Qed.

(** An effect that is that of a command (or of nothing). *)
Lemma effect_of_command o (c c' : ctl) evs :
  trace c' = trace c ++ evs -> existsb is_close evs = false ->
  c_name c' = c_name c -> c_bad c' = bad_after (c_bad c) evs ->
  (exists new, c_errors c' = c_errors c ++ new /\
    Forall2 (message_about (c_name c)) new
      (match o with
       | Safe_do _ _ | Safe_known _ => texts low_level_error evs
       | Safe_close => texts trouble evs
       | _ => []
       end)) ->
  c_aliases c' = c_aliases c -> (forall a, o <> Set_aliases a) ->
  (forall k b, dget k (c_known c) = Some b -> dget k (c_known c') = Some b) ->
  (forall k b, dget k (c_known c') = Some b -> dget k (c_known c) = Some b \/ asks o k) ->
  c_closed c' = c_closed c -> (c_closed c = true -> evs = []) -> effect o c c' evs.
Proof.
  intros T NC N B E A NA K K2 Cl CE. constructor; auto.
  - destruct o; try exact A. elim (NA a); reflexivity.
  - intros H. split; [auto|congruence].
  - congruence.
  - intros _. apply no_close_in. exact NC.
Qed.

Lemma effect_nothing o (c : ctl) : (forall a, o <> Set_aliases a) -> effect o c c [].
Proof.
  intros NA. apply effect_of_command; auto.
  - rewrite app_nil_r; reflexivity.
  - rewrite bad_after_nil. reflexivity.
  - exists []. rewrite app_nil_r. split; [reflexivity|]. destruct o; constructor.
Qed.

Lemma known_same (c c' : ctl) o : c_known c' = c_known c ->
  (forall k b, dget k (c_known c) = Some b -> dget k (c_known c') = Some b) /\
  (forall k b, dget k (c_known c') = Some b -> dget k (c_known c) = Some b \/ asks o k).
Proof. intros ->. split; auto. Qed.

(** A call that is a plain [do_command]. *)
Lemma effect_do o (c c' : ctl) cmd args r :
  (forall a, o <> Set_aliases a) -> is_safe o = false ->
  do_command (recorded ch) c cmd args = (c', r) ->
  exists evs, effect o c c' evs /\
    (c_closed c = true -> c' = c /\ r = CExn standard_error) /\
    (c_closed c = false -> exchange (meaning (c_aliases c) cmd) args evs /\
       outcome (c_name c) (meaning (c_aliases c) cmd) args evs r).
Proof.
  intros NA NS D. destruct (c_closed c) eqn:Cl.
  - rewrite (do_command_closed c cmd args Cl) in D. injection D as <- <-.
    exists []. split; [apply effect_nothing; exact NA|]. split; [auto|discriminate].
  - destruct (do_command_open c c' cmd args r Cl D) as (evs & T & Ex & O & (N & K & A & E) & Cl' & B).
    exists evs. split; [|split; [discriminate|auto]].
    destruct (known_same c c' o K) as [K1 K2].
    apply effect_of_command; auto; try congruence.
    + exact (exchange_no_close _ _ _ Ex).
    + exists []. rewrite app_nil_r. split; [exact E|]. destruct o; try constructor; discriminate NS.
Qed.

Lemma effect_safe_do o (c c' : ctl) cmd args r :
  (forall a, o <> Set_aliases a) -> (o = Safe_known cmd \/ o = Safe_do cmd args \/ exists x, o = Safe_known x) ->
  safe_do_command (recorded ch) c cmd args = (c', r) ->
  exists evs, effect o c c' evs /\ c_known c' = c_known c /\ c_closed c' = c_closed c /\
    (c_closed c = true \/ c_bad c = true -> c' = c /\ r = CRet None /\ evs = []) /\
    (c_closed c = false -> c_bad c = false -> exchange (meaning (c_aliases c) cmd) args evs /\
       safe_outcome (c_name c) (meaning (c_aliases c) cmd) args evs r).
Proof.
  intros NA Oo D.
  assert (Dec : (c_closed c = true \/ c_bad c = true) \/ (c_closed c = false /\ c_bad c = false)).
  { destruct (c_closed c), (c_bad c); auto. }
  destruct Dec as [Sh|[Cl Nb]].
  - rewrite (safe_do_shut c cmd args Sh) in D. injection D as <- <-.
    exists []. split; [apply effect_nothing; exact NA|]. do 2 (split; [reflexivity|]). split; [auto|].
    intros; destruct Sh; congruence.
  - destruct (safe_do_open c c' cmd args r Cl Nb D) as (evs & T & Ex & O & N & K & A & Cl' & B & E).
    exists evs. split; [|split; [exact K|split; [congruence|split; [intros [|]; congruence|auto]]]].
    destruct (known_same c c' o K) as [K1 K2].
    apply effect_of_command; auto; try congruence.
    + exact (exchange_no_close _ _ _ Ex).
    + destruct E as (new & E & F). exists new. split; [exact E|].
      destruct Oo as [->|[->|[x ->]]]; exact F.
Qed.

(** Changing the known commands. *)
Lemma effect_remember o (c c' : ctl) evs k b :
  effect o c c' evs -> c_known c' = c_known c -> dget k (c_known c) = None -> asks o k ->
  effect o c (with_known (dset k b (c_known c')) c') evs.
Proof.
  intros [T N B E A K K2 Cl Cg Op Os] Same Fresh As. constructor; try assumption.
  - intros k2 b2 G. cbn. rewrite dget_dset. destruct (bytes_eqb_spec k2 k) as [->|]; [congruence|]. auto.
  - intros k2 b2. cbn. rewrite dget_dset. destruct (bytes_eqb_spec k2 k) as [->|]; [auto|apply K2].
Qed.

(** [known_command] and [safe_known_command] in one. *)
Lemma effect_known o (c c' : ctl) k r :
  asks o k -> perform (recorded ch) o c = (c', r) ->
  match dget k (c_known c) with
  | Some b => c' = c /\ r = CRet (VBool b)
  | None =>
      exists evs, effect o c c' evs /\
        match r with
        | CRet (VBool b) => dget k (c_known c') = Some b
        | CRet _ | CBad _ _ => False
        | _ => dget k (c_known c') = None
        end /\
        (o = Safe_known k ->
           c_closed c = true \/ c_bad c = true -> evs = [] /\ r = CRet (VBool false)) /\
        (o = Known k -> c_closed c = true -> c' = c /\ r = CExn standard_error) /\
        (c_closed c = false -> (o = Safe_known k -> c_bad c = false) ->
           exchange (meaning (c_aliases c) (str "known_command")) [meaning (c_aliases c) k] evs /\
           match r with
           | CRet v => v = VBool (says_yes evs) /\ existsb unexpected evs = false
           | CBad _ _ => False
           | CChan _ _ => o = Known k /\ texts low_level_error evs <> []
           | CExn _ => existsb unexpected evs = true
           end)
  end.
Proof.
  intros As H.
  assert (NA : forall a, o <> Set_aliases a) by (destruct As; subst; discriminate).
  destruct As as [Eo|Eo]; subst o; cbn in H; unfold known_command, safe_known_command, known_command_with, lift in H.
  - destruct (dget k (c_known c)) as [b|] eqn:G; [injection H as <- <-; auto|].
    unfold plain_do_command in H.
    change (translate (c_aliases c) k) with (meaning (c_aliases c) k) in H.
    destruct (do_command (recorded ch) c (str "known_command") [meaning (c_aliases c) k]) as [c1 r1] eqn:D.
    assert (KK : c_known c1 = c_known c).
    { destruct (c_closed c) eqn:Cl.
      - rewrite (do_command_closed c _ _ Cl) in D. congruence.
      - destruct (do_command_open c c1 _ _ r1 Cl D) as (? & _ & _ & _ & (_ & K0 & _) & _). exact K0. }
    destruct (effect_do (Known k) c c1 _ _ r1 NA eq_refl D) as (evs & Ef & C1 & O1).
    exists evs.
    destruct (c_closed c) eqn:Cl.
    + destruct (C1 eq_refl) as [E1 E2]. subst c1 r1. cbn in H. injection H as <- <-.
      split; [exact Ef|]. split; [exact G|]. split; [discriminate|]. split; [auto|discriminate].
    + destruct (O1 eq_refl) as [Ex O].
      destruct (outcome_cases _ _ _ _ _ Ex O) as [(kk & text & msg & L & U & Sy & -> & M & _)|[(e & L & U & Sy & -> & _)|
        [(text & Ee & -> & L & U & _)|(text & msg & Ee & -> & M & L & U & Sy & _)]]]; cbn in H; injection H as <- <-.
      * split; [exact Ef|]. split; [congruence|]. split; [discriminate|]. split; [discriminate|].
        intros _ _. split; [exact Ex|]. split; [reflexivity|]. rewrite L. discriminate.
      * split; [exact Ef|]. split; [congruence|]. split; [discriminate|]. split; [discriminate|].
        intros _ _. split; [exact Ex|]. exact U.
      * split; [apply effect_remember; auto; left; reflexivity|].
        split; [cbn; apply dget_dset_same|]. split; [discriminate|]. split; [discriminate|].
        intros _ _. split; [exact Ex|]. split; [subst evs; reflexivity|exact U].
      * split; [apply effect_remember; auto; left; reflexivity|].
        split; [cbn; apply dget_dset_same|]. split; [discriminate|]. split; [discriminate|].
        intros _ _. split; [exact Ex|]. split; [rewrite Sy; reflexivity|exact U].
  - destruct (dget k (c_known c)) as [b|] eqn:G; [injection H as <- <-; auto|].
    change (translate (c_aliases c) k) with (meaning (c_aliases c) k) in H.
    destruct (safe_do_command (recorded ch) c (str "known_command") [meaning (c_aliases c) k]) as [c1 r1] eqn:D.
    destruct (effect_safe_do (Safe_known k) c c1 _ _ r1 NA (or_intror (or_intror (ex_intro _ k eq_refl))) D)
      as (evs & Ef & KK & CC & Sh & O1).
    exists evs.
    assert (Dec : (c_closed c = true \/ c_bad c = true) \/ (c_closed c = false /\ c_bad c = false)).
    { destruct (c_closed c), (c_bad c); auto. }
    destruct Dec as [S|[Cl Nb]].
    + destruct (Sh S) as (E1 & E2 & E3). subst c1 r1 evs. cbn in H. injection H as <- <-.
      split; [apply effect_remember; auto; right; reflexivity|].
      split; [cbn; apply dget_dset_same|]. split.
      * auto.
      * split; [discriminate|]. intros A B. pose proof (B eq_refl). destruct S; congruence.
    + destruct (O1 Cl Nb) as [Ex (r0 & O & ->)].
      destruct (outcome_cases _ _ _ _ _ Ex O) as [(kk & text & msg & L & U & Sy & -> & M & _)|[(e & L & U & Sy & -> & _)|
        [(text & Ee & -> & L & U & _)|(text & msg & Ee & -> & M & L & U & Sy & _)]]]; cbn in H; injection H as <- <-.
      * split; [apply effect_remember; auto; right; reflexivity|].
        split; [cbn; apply dget_dset_same|]. split; [intros _ [|]; congruence|]. split; [discriminate|].
        intros _ _. split; [exact Ex|]. split; [rewrite Sy; reflexivity|exact U].
      * split; [exact Ef|]. split; [congruence|]. split; [intros _ [|]; congruence|]. split; [discriminate|].
        intros _ _. split; [exact Ex|]. exact U.
      * split; [apply effect_remember; auto; right; reflexivity|].
        split; [cbn; apply dget_dset_same|]. split; [intros _ [|]; congruence|]. split; [discriminate|].
        intros _ _. split; [exact Ex|]. split; [subst evs; reflexivity|exact U].
      * split; [apply effect_remember; auto; right; reflexivity|].
        split; [cbn; apply dget_dset_same|]. split; [intros _ [|]; congruence|]. split; [discriminate|].
        intros _ _. split; [exact Ex|]. split; [rewrite Sy; reflexivity|exact U].
Qed.

Lemma effect_close (c c' : ctl) r :
  close (recorded ch) c = (c', r) ->
  exists evs, effect Close c c' evs /\
    (c_closed c = true -> c' = c /\ r = CExn standard_error) /\
    (c_closed c = false -> exists x, evs = [EvClose x] /\
       c_closed c' = (match x with None => true | Some _ => false end) /\
       match x with
       | None => r = CRet tt
       | Some (XChan KTransport text) => exists msg, r = CChan KTransport msg /\ message_about (c_name c) msg text
       | Some (XChan k text) => r = CChan k text
       | Some (XOther e) => r = CExn e
       end).
Proof.
  unfold close. destruct (c_closed c) eqn:Cl.
  - intros H; injection H as <- <-. exists []. split; [apply effect_nothing; discriminate|]. split; [auto|discriminate].
  - cbn [recorded ch_close]. destruct (ch_close ch (fst (c_chan c))) as [x rr] eqn:E. intros H.
    exists [EvClose rr].
    assert (Q : c_name c' = c_name c /\ c_known c' = c_known c /\ c_aliases c' = c_aliases c /\ c_errors c' = c_errors c /\
                c_bad c' = c_bad c /\ trace c' = trace c ++ [EvClose rr] /\
                c_closed c' = match rr with None => true | Some _ => false end).
    { destruct rr as [[[| | |] text|e]|]; injection H as <- <-; repeat split; exact Cl. }
    destruct Q as (Q1 & Q2 & Q3 & Q4 & Q5 & Q6 & Q7).
    split; [|split; [discriminate|intros _; exists rr; split; [reflexivity|split; [exact Q7|]]]].
    + destruct (known_same c c' Close Q2) as [K1 K2]. constructor; auto.
      * rewrite Q5. unfold bad_after. cbn. rewrite orb_false_r. reflexivity.
      * exists []. rewrite app_nil_r. split; [exact Q4|constructor].
      * congruence.
      * intros _ _. exists [], rr. split; reflexivity.
      * intros O y [I|[]]. injection I as <-. intros ->. congruence.
      * congruence.
    + destruct rr as [[[| | |] text|e]|]; injection H as <- <-; try reflexivity.
      eexists; split; [reflexivity|apply closing_message_about].
Qed.

Lemma safe_close_channel_spec (c c' : ctl) r :
  c_closed c = false ->
  safe_close_channel (recorded ch) c = (c', r) ->
  exists x, trace c' = trace c ++ [EvClose x] /\ c_name c' = c_name c /\ c_known c' = c_known c /\
    c_aliases c' = c_aliases c /\ c_bad c' = c_bad c /\
    (exists new, c_errors c' = c_errors c ++ new /\ Forall2 (message_about (c_name c)) new (texts trouble [EvClose x])) /\
    (unexpected (EvClose x) = false -> c_closed c' = true /\ r = CRet tt) /\
    (unexpected (EvClose x) = true -> c_closed c' = false /\ x <> None).
Proof.
  intros Cl. unfold safe_close_channel. cbn [recorded ch_close].
  destruct (ch_close ch (fst (c_chan c))) as [x rr] eqn:E. intros H. exists rr.
  destruct rr as [[[| | |] text|e]|]; injection H as <- <-; do 5 (split; [reflexivity|]).
  all: split; [first [exists []; split; [rewrite app_nil_r; reflexivity|constructor]
                     |exists [closing_message (c_name c) text]; split; [reflexivity|constructor; [apply closing_message_about|constructor]]]|].
  all: split; intros U; try discriminate U; split; try reflexivity; try exact Cl; discriminate.
Qed.

Lemma effect_safe_close (c c' : ctl) r :
  safe_close (recorded ch) c = (c', r) ->
  exists evs, effect Safe_close c c' evs /\
    (c_closed c = true -> c' = c /\ r = CRet tt) /\
    (c_closed c = false -> existsb unexpected evs = false ->
       r = CRet tt /\ c_closed c' = true /\
       exists q x, evs = q ++ [EvClose x] /\
         (c_bad c = true -> q = []) /\
         (c_bad c = false -> exchange (meaning (c_aliases c) (str "quit")) [] q)).
Proof.
  unfold safe_close. destruct (c_closed c) eqn:Cl.
  { intros H; injection H as <- <-. exists []. split; [apply effect_nothing; discriminate|]. split; [auto|discriminate]. }
  destruct (c_bad c) eqn:Bd.
  { intros H. destruct (safe_close_channel_spec c c' r Cl H) as (x & T & N & K & A & B & E & U1 & U2).
    destruct (known_same c c' Safe_close K) as [K1 K2].
    exists [EvClose x]. split.
    - constructor; auto.
      + rewrite B. unfold bad_after. cbn. rewrite orb_false_r. reflexivity.
      + congruence.
      + intros _ _. exists [], x. split; reflexivity.
      + intros O y [I|[]]. injection I as <-. destruct (unexpected (EvClose x)) eqn:U; [apply U2; reflexivity|].
        destruct (U1 eq_refl). congruence.
      + intros O _ U. cbn in U. rewrite orb_false_r in U. destruct (U1 U). congruence.
    - split; [discriminate|]. intros _ U. cbn [existsb] in U. rewrite orb_false_r in U. destruct (U1 U) as [C1 R1].
      split; [exact R1|]. split; [exact C1|]. exists [], x. repeat split; auto. discriminate. }
  destruct (safe_do_command (recorded ch) c (str "quit") []) as [c1 r1] eqn:D.
  destruct (safe_do_open c c1 _ _ r1 Cl Bd D) as (evs & T & Ex & (r0 & O & Er) & N & K & A & Cl1 & B & (new & E & F)).
  intros H.
  (* the part common to the ways of reaching the closing of the channel *)
  assert (Common : forall c2, trace c2 = trace c1 -> c_name c2 = c_name c1 -> c_known c2 = c_known c1 ->
      c_aliases c2 = c_aliases c1 -> c_bad c2 = c_bad c1 -> c_closed c2 = false ->
      (exists new2, c_errors c2 = c_errors c ++ new2 /\ Forall2 (message_about (c_name c)) new2 (texts trouble evs)) ->
      existsb unexpected evs = false ->
      safe_close_channel (recorded ch) c2 = (c', r) ->
      exists evs0, effect Safe_close c c' evs0 /\
        (false = true -> c' = c /\ r = CRet tt) /\
        (false = false -> existsb unexpected evs0 = false ->
           r = CRet tt /\ c_closed c' = true /\
           exists q x, evs0 = q ++ [EvClose x] /\
             (false = true -> q = []) /\
             (false = false -> exchange (meaning (c_aliases c) (str "quit")) [] q))).
  { intros c2 T2 N2 K2 A2 B2 C2 (new2 & E2 & F2) Ue H2.
    destruct (safe_close_channel_spec c2 c' r C2 H2) as (x & T3 & N3 & K3 & A3 & B3 & (new3 & E3 & F3) & U1 & U2).
    destruct (known_same c c' Safe_close) as [KK1 KK2]; [congruence|].
    exists (evs ++ [EvClose x]). split; [|split; [discriminate|]].
    - constructor; auto; try congruence.
      + rewrite T3, T2, T, app_assoc. reflexivity.
      + rewrite bad_after_app, B3, B2, B. unfold bad_after at 2. cbn. rewrite orb_false_r. reflexivity.
      + exists (new2 ++ new3). split; [rewrite E3, E2, app_assoc; reflexivity|].
        rewrite texts_app. apply Forall2_app; [exact F2|]. rewrite N2, N in F3. exact F3.
      + intros _ _. exists evs, x. split; [reflexivity|]. exact (exchange_no_close _ _ _ Ex).
      + intros Op y I. apply in_app_or in I. destruct I as [I|[I|[]]].
        * exact (no_close_in _ (exchange_no_close _ _ _ Ex) y I).
        * injection I as <-. destruct (unexpected (EvClose x)) eqn:U; [apply U2; reflexivity|].
          destruct (U1 eq_refl). congruence.
      + intros Op _ U. rewrite existsb_app, orb_false_iff in U. destruct U as [_ U].
        cbn [existsb] in U. rewrite orb_false_r in U. destruct (U1 U). congruence.
    - intros _ U. rewrite existsb_app, orb_false_iff in U. destruct U as [_ U].
      cbn [existsb] in U. rewrite orb_false_r in U. destruct (U1 U) as [Cc Rr].
      split; [exact Rr|]. split; [exact Cc|]. exists evs, x. split; [reflexivity|]. split; [discriminate|]. auto. }
  destruct (outcome_cases _ _ _ _ _ Ex O) as [(kk & text & msg & L & U & Sy & -> & M & Tr)|[(e & L & U & Sy & -> & Tr)|
    [(text & Ee & -> & L & U & Tr)|(text & msg & Ee & -> & M & L & U & Sy & Tr)]]]; subst r1.
  - apply (Common c1); auto. exists new. rewrite Tr, <- L. split; [exact E|exact F].
  - injection H as <- <-. exists evs. destruct (known_same c c1 Safe_close K) as [K1 K2].
    split; [|split; [discriminate|]].
    + apply effect_of_command; auto; try congruence; try discriminate.
      * exact (exchange_no_close _ _ _ Ex).
      * exists new. rewrite Tr. rewrite L in F. auto.
    + intros _ U'. congruence.
  - apply (Common c1); auto. exists new. rewrite Tr, <- L. split; [exact E|exact F].
  - apply (Common (add_error msg c1)); auto.
    exists (new ++ [msg]). rewrite L in F. inversion F; subst new. cbn. rewrite Tr, E, app_nil_r.
    split; [reflexivity|]. constructor; [exact M|constructor].
Qed.

Lemma effect_any o (c c' : ctl) r :
  perform (recorded ch) o c = (c', r) -> exists evs, effect o c c' evs.
Proof.
  intros H.
  destruct o as [cmd args|cmd args|k|k| | | | |a].
  - cbn in H. unfold lift in H. destruct (do_command (recorded ch) c cmd args) as [c1 r1] eqn:D.
    injection H as <- _. destruct (effect_do (Do cmd args) c c1 cmd args r1) as (evs & E & _); auto; try discriminate. exists evs; exact E.
  - cbn in H. unfold lift in H. destruct (safe_do_command (recorded ch) c cmd args) as [c1 r1] eqn:D.
    injection H as <- _. destruct (effect_safe_do (Safe_do cmd args) c c1 cmd args r1) as (evs & E & _); auto; try discriminate. exists evs; exact E.
  - pose proof (effect_known (Known k) c c' k r (or_introl eq_refl) H) as G.
    destruct (dget k (c_known c)); [destruct G as [-> _]; exists []; apply effect_nothing; discriminate|].
    destruct G as (evs & E & _). exists evs; exact E.
  - pose proof (effect_known (Safe_known k) c c' k r (or_intror eq_refl) H) as G.
    destruct (dget k (c_known c)); [destruct G as [-> _]; exists []; apply effect_nothing; discriminate|].
    destruct G as (evs & E & _). exists evs; exact E.
  - cbn in H. unfold lift, check_protocol_version in H.
    destruct (do_command (recorded ch) c (str "protocol_version") []) as [c1 r1] eqn:D.
    assert (c' = c1). { destruct r1 as [v| | |]; [destruct (is_version_2 v)| | |]; cbn in H; congruence. } subst c1.
    destruct (effect_do Check_version c c' _ _ r1 ltac:(discriminate) eq_refl D) as (evs & E & _). exists evs; exact E.
  - cbn in H. unfold lift, list_commands in H.
    destruct (do_command (recorded ch) c (str "list_commands") []) as [c1 r1] eqn:D.
    assert (c' = c1). { destruct r1; cbn in H; congruence. } subst c1.
    destruct (effect_do List_commands c c' _ _ r1 ltac:(discriminate) eq_refl D) as (evs & E & _). exists evs; exact E.
  - cbn in H. unfold lift in H. destruct (close (recorded ch) c) as [c1 r1] eqn:D. injection H as <- _.
    destruct (effect_close c c1 r1 D) as (evs & E & _). exists evs; exact E.
  - cbn in H. unfold lift in H. destruct (safe_close (recorded ch) c) as [c1 r1] eqn:D. injection H as <- _.
    destruct (effect_safe_close c c1 r1 D) as (evs & E & _). exists evs; exact E.
  - cbn in H. injection H as <- _. exists []. constructor; cbn; auto.
    + unfold trace. cbn. rewrite app_nil_r. reflexivity.
    + rewrite bad_after_nil. reflexivity.
    + exists []. rewrite app_nil_r. split; [reflexivity|constructor].
    + intros A B. congruence.
Qed.

(** ** Histories *)

Lemma after_app (c c1 c2 : ctl) os1 rs1 os2 rs2 :
  after (recorded ch) c os1 c1 rs1 -> after (recorded ch) c1 os2 c2 rs2 ->
  after (recorded ch) c (os1 ++ os2) c2 (rs1 ++ rs2).
Proof.
  intros A B. induction B as [|os c3 rs o c4 r B IH P]; [rewrite !app_nil_r; exact A|].
  rewrite !app_assoc. exact (after_step _ _ _ _ _ _ _ _ IH P).
Qed.

Lemma after_cons (c c1 c2 : ctl) o r os rs :
  perform (recorded ch) o c = (c1, r) -> after (recorded ch) c1 os c2 rs ->
  after (recorded ch) c (o :: os) c2 (r :: rs).
Proof.
  intros P A. change (o :: os) with ([o] ++ os). change (r :: rs) with ([r] ++ rs).
  apply (after_app c c1 c2); [|exact A].
  change [o] with ([] ++ [o]). change [r] with ([] ++ [r]).
  exact (after_step _ _ _ _ _ _ _ _ (after_nil _ _) P).
Qed.

Lemma reached_step c o c' r : reached ch c -> perform (recorded ch) o c = (c', r) -> reached ch c'.
Proof.
  intros (x & name & os & rs & A) P. exists x, name, (os ++ [o]), (rs ++ [r]). exact (after_step _ _ _ _ _ _ _ _ A P).
Qed.

Record good (c : ctl) : Prop := mkGood {
  go_bad : c_bad c = bad_after false (trace c);
  go_open : c_closed c = false -> ~ In (EvClose None) (trace c);
  go_closed : c_closed c = true -> exists t x, trace c = t ++ [EvClose x] /\ ~ In (EvClose None) t
}.

Lemma good_after c os c' rs : good c -> after (recorded ch) c os c' rs -> good c'.
Proof.
  intros G A. induction A as [|os c1 rs o c2 r A IH P]; [exact G|].
  destruct IH as [B O C]. destruct (effect_any o c1 c2 r P) as (evs & [T N Bd E Al K K2 Cl Cg Op Os]).
  constructor.
  - rewrite Bd, B, T, <- bad_after_app. reflexivity.
  - intros H I. rewrite T in I. apply in_app_or in I. destruct I as [I|I].
    + destruct (c_closed c1) eqn:Z; [destruct (Cl eq_refl); congruence|]. exact (O eq_refl I).
    + exact (Op H None I eq_refl).
  - intros H. destruct (c_closed c1) eqn:Z.
    + destruct (Cl eq_refl) as [-> _]. rewrite T, app_nil_r. exact (C eq_refl).
    + destruct (Cg eq_refl H) as (e0 & x & -> & NC). exists (trace c1 ++ e0), x. split; [rewrite T, app_assoc; reflexivity|].
      intros I. apply in_app_or in I. destruct I as [I|I]; [exact (O eq_refl I)|exact (no_close_in _ NC None I eq_refl)].
Qed.

Lemma good_reached c : reached ch c -> good c.
Proof.
  intros (x & name & os & rs & A). apply (good_after _ os c rs) in A; [exact A|].
  constructor; cbn; auto. discriminate.
Qed.

Lemma bad_iff c : reached ch c -> (c_bad c = true <-> texts low_level_error (trace c) <> []).
Proof.
  intros R. rewrite (go_bad _ (good_reached c R)). unfold bad_after. cbn.
  destruct (texts low_level_error (trace c)); split; congruence.
Qed.

Lemma trace_grows c os c' rs : after (recorded ch) c os c' rs -> exists evs, trace c' = trace c ++ evs.
Proof.
  intros A. induction A as [|os c1 rs o c2 r A IH P]; [exists []; rewrite app_nil_r; reflexivity|].
  destruct IH as (e1 & T1). destruct (effect_any o c1 c2 r P) as (evs & [T _ _ _ _ _ _ _ _ _ _]).
  exists (e1 ++ evs). rewrite T, T1, app_assoc. reflexivity.
Qed.

Lemma errors_grow c os c' rs : after (recorded ch) c os c' rs -> c_name c' = c_name c /\ exists new, c_errors c' = c_errors c ++ new.
Proof.
  intros A. induction A as [|os c1 rs o c2 r A IH P]; [split; [reflexivity|exists []; rewrite app_nil_r; reflexivity]|].
  destruct IH as (N1 & e1 & T1). destruct (effect_any o c1 c2 r P) as (evs & [_ N2 _ (new & E & _) _ _ _ _ _ _ _]).
  split; [congruence|]. exists (e1 ++ new). rewrite E, T1, app_assoc. reflexivity.
Qed.

Lemma known_kept c os c' rs k b : after (recorded ch) c os c' rs -> dget k (c_known c) = Some b -> dget k (c_known c') = Some b.
Proof.
  intros A G. induction A as [|os c1 rs o c2 r A IH P]; [exact G|].
  destruct (effect_any o c1 c2 r P) as (evs & Ef). exact (ef_known _ _ _ _ Ef k b IH).
Qed.

(** A cached answer was given by an earlier call. *)
Lemma known_was_asked c os c' rs k b : after (recorded ch) c os c' rs -> c_known c = [] -> dget k (c_known c') = Some b ->
  exists i o, nth_error os i = Some o /\ asks o k /\ nth_error rs i = Some (CRet (VBool b)).
Proof.
  intros A E. revert b. induction A as [|os c1 rs o c2 r A IH P]; intros b G; [rewrite E in G; discriminate G|].
  assert (L : List.length os = List.length rs).
  { clear -A. induction A as [|? ? ? ? ? ? A0 IH0]; [reflexivity|]. rewrite !app_length, IH0. reflexivity. }
  destruct (effect_any o c1 c2 r P) as (evs & Ef).
  assert (Old : dget k (c_known c1) = Some b -> exists i o0,
      nth_error (os ++ [o]) i = Some o0 /\ asks o0 k /\ nth_error (rs ++ [r]) i = Some (CRet (VBool b))).
  { intros G1. destruct (IH b G1) as (i & o' & N1 & As & N2). exists i, o'.
    split; [|split; [exact As|]]; rewrite nth_error_app1; auto.
    - apply nth_error_Some. congruence.
    - apply nth_error_Some. congruence. }
  destruct (ef_known_new _ _ _ _ Ef k b G) as [G1|As]; [exact (Old G1)|].
  pose proof (effect_known o c1 c2 k r As P) as EK.
  destruct (dget k (c_known c1)) as [b1|] eqn:G1.
  - destruct EK as [-> ->]. assert (b1 = b) by congruence. subst b1. exact (Old eq_refl).
  - destruct EK as (evs' & _ & M & _). exists (List.length os), o.
    rewrite nth_error_app2, Nat.sub_diag by lia. split; [reflexivity|]. split; [exact As|].
    rewrite L, nth_error_app2, Nat.sub_diag by lia. cbn. f_equal.
    destruct r as [v| | |]; try congruence; try contradiction.
    destruct v; try contradiction. congruence.
Qed.

End Proofs.
