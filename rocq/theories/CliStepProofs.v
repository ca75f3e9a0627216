(** Proofs about the 'ringmaster' command: how its parts may end. *)
From Verif Require Import Base Bytes PyStr RingFilesModel CliModel CliSpec CliProofs.
Open Scope Z_scope.

Section Proofs.
Context {ST : Type}.
Notation event := (@event ST).
Notation history := (@history ST).
Notation call := (@call ST).
Variable w : @world ST.
Variable decodes : bytes -> bool.
Variable comp_vn : Z.
Variable brief traceback : exn -> bytes.
Notation verdict := (verdict (ST:=ST) brief traceback).
Notation plain := (plain traceback).
Notation refused := (refused decodes comp_vn traceback).
Variable c : command.
Variable control : bytes.
Variable o : options.
Notation ready := (ready comp_vn c o).
Variable tl : event -> list bytes.

(** How a part of the command may end, from history [h]: [ps] are the calls it is to make, [Q] holds if
    it succeeds, [pl] is what becomes of an exception. *)
Definition ends {A} (pl : exn -> Z * list bytes) (h : history) (ps : list call -> Prop) (Q : A -> history -> Prop) (x : history * outcome A) : Prop :=
  exists l, fst x = h ++ l /\ complaints l = [] /\ said l = flat_map tl l /\
    (forall l1 q r l2, l = l1 ++ Called q r :: l2 -> ready q (h ++ l1)) /\
    match snd x with
    | Good a => raises l = [] /\ ps (calls l) /\ Q a l
    | Raise e =>
        (exists p, ps p /\ prefix (calls l) p) /\
        ((exists l1 q e', l = l1 ++ [Called q (Raise e')] /\ raises l1 = [] /\ pl e = verdict c q e') \/
         (raises l = [] /\ refused c control (h ++ l) (pl e)))
    end.

Lemma app_split {A} (x : A) l1 : forall l2 a b, a ++ b = l1 ++ x :: l2 ->
  (exists m, a = l1 ++ x :: m) \/ (exists m, l1 = a ++ m /\ b = m ++ x :: l2).
Proof.
  induction l1 as [|y l1 IH]; intros l2 a b E; destruct a as [|z a]; cbn [app] in E.
  - right. exists []. auto.
  - left. exists a. injection E as -> _. reflexivity.
  - right. exists (y :: l1). auto.
  - injection E as -> E. destruct (IH _ _ _ E) as [(m & ->)|(m & -> & ->)]; [left; exists m; reflexivity|right; exists m; auto].
Qed.

Lemma ends_ret {A} pl h (Q : A -> history -> Prop) a : Q a [] -> ends pl h (fun l => l = []) Q (ret a h).
Proof. intros H. exists []. cbn. rewrite app_nil_r. split; [reflexivity|]. split; [reflexivity|]. split; [reflexivity|]. split; [intros [|? l1] q r l2 E; discriminate E|]. auto. Qed.

(** The rest after a part. *)
Lemma ends_bind {A B} pl h ps1 (ps2 : A -> list call -> Prop) (Q1 : A -> history -> Prop) (Q2 : B -> history -> Prop) (m : M A) (f : A -> M B) :
  ends pl h ps1 Q1 (m h) -> (exists a p, ps2 a p) ->
  (forall a l, Q1 a l -> ends pl (h ++ l) (ps2 a) (fun b l2 => Q2 b (l ++ l2)) (f a (h ++ l))) ->
  ends pl h (fun p => exists a p1 p2, p = p1 ++ p2 /\ ps1 p1 /\ ps2 a p2) Q2 (bind m f h).
Proof.
  intros (l & E & C & S & J & H) (a2 & p2 & P2) F. unfold bind. destruct (m h) as [h' [a|e]]; cbn [fst snd] in *; subst h'.
  - destruct H as (R & P & q). destruct (F a l q) as (l2 & E2 & C2 & S2 & J2 & H2). exists (l ++ l2).
    rewrite complaints_app, said_app, flat_map_app, C, C2, S, S2, app_assoc. split; [exact E2|]. repeat (split; [reflexivity|]).
    split.
    { intros l1 q1 r1 l3 E3. destruct (app_split _ _ _ _ _ E3) as [(m0 & M0)|(m0 & -> & M0)]; [exact (J _ _ _ _ M0)|].
      rewrite app_assoc. exact (J2 _ _ _ _ M0). }
    destruct (snd (f a (h ++ l))) as [b|e].
    + destruct H2 as (R2 & P3 & q2). rewrite raises_app, calls_app, R, R2. split; [reflexivity|]. split; [|exact q2].
      exists a, (calls l), (calls l2). auto.
    + destruct H2 as ((p & P3 & (r & PR)) & [(l1 & q1 & e' & L1 & R1 & V)|(R2 & RF)]).
      * split; [exists (calls l ++ p); split; [exists a, (calls l), p; auto|]; exists r; rewrite calls_app, <- app_assoc, PR; reflexivity|].
        left. exists (l ++ l1), q1, e'. rewrite L1, app_assoc, raises_app, R, R1. repeat split. exact V.
      * split; [exists (calls l ++ p); split; [exists a, (calls l), p; auto|]; exists r; rewrite calls_app, <- app_assoc, PR; reflexivity|].
        right. rewrite raises_app, R, R2. split; [reflexivity|]. exact RF.
  - exists l. repeat (split; [reflexivity || assumption|]). destruct H as ((p & P & (r & PR)) & H). split; [|exact H].
    exists (p ++ p2). split; [exists a2, p, p2; auto|]. exists (r ++ p2). rewrite PR, app_assoc. reflexivity.
Qed.

Lemma ends_impl {A} pl h (ps ps' : list call -> Prop) (Q Q' : A -> history -> Prop) x :
  (forall p, ps p -> ps' p) -> (forall a l, Q a l -> Q' a l) -> ends pl h ps Q x -> ends pl h ps' Q' x.
Proof.
  intros P K (l & E & C & S & J & H). exists l. repeat (split; [assumption|]).
  destruct (snd x); [destruct H as (? & ? & ?); auto|]. destruct H as ((p & ? & ?) & ?). split; [|assumption]. exists p. auto.
Qed.

(** Only checks of players are talked about. *)
Definition silent (q : call) : Prop := forall r, tl (Called q r) = [].

(** A single call. *)
Lemma ends_ask pl h q : silent q -> ready q h -> (forall e, pl e = verdict c q e) ->
  ends pl h (fun p => p = [q]) (fun a l => l = [Called q (Good a)]) (ask w q h).
Proof.
  intros S RD V. unfold ask. exists [Called q (w q h)]. split; [reflexivity|]. split; [reflexivity|].
  split; [cbn; rewrite S; reflexivity|].
  split; [intros [|x l1] q1 r1 l2 E; [pose proof (f_equal (fun h => hd_error (calls h)) E) as Q; injection Q as <-; rewrite app_nil_r; exact RD|destruct l1; discriminate E]|]. cbn [snd].
  destruct (w q h) as [a|e]; cbn.
  - repeat split.
  - split; [exists [q]; split; [reflexivity|]; exists []; reflexivity|]. left. exists [], q, e. repeat split. apply V.
Qed.
(** A handler that raises other exceptions. *)
Lemma ends_catch {A} pl (g : exn -> exn) h ps (Q : A -> history -> Prop) (m : M A) f : (forall e h1, f e h1 = (h1, Raise (g e))) ->
  ends (fun e => pl (g e)) h ps Q (m h) -> ends pl h ps Q (catch m f h).
Proof.
  intros F (l & E & C & S & J & H). unfold catch. destruct (m h) as [h' [a|e]]; cbn [fst snd] in *; subst h'; exists l; [cbn; auto|].
  rewrite F. cbn. auto.
Qed.
(** A refusal. *)
Lemma ends_refused {A} pl h ps (Q : A -> history -> Prop) e : (exists p, ps p) ->
  refused c control h (pl e) -> ends pl h ps Q (raise e h).
Proof.
  intros (p & P) R. exists []. cbn. rewrite app_nil_r. repeat (split; [reflexivity|]). split; [intros [|? l1] q r l2 E; discriminate E|]. split; [exists p; split; [exact P|]; exists p; reflexivity|].
  right. split; [reflexivity|exact R].
Qed.

(** ** The control file *)
Hypothesis silent_opening : silent ControlExists /\ silent ReadControl /\ silent Interpret /\ silent InitRingmaster /\ silent InitCompetition.

Definition on_control (e : exn) : exn := match e with XControl t => XRing (str "error in control file:" ++ nl ++ t) | _ => e end.
Definition on_read (e : exn) : exn := match e with XEnvironment t => XRing (str "failed to read control file:" ++ nl ++ t) | _ => e end.
Definition on_interpret (e : exn) : exn := match e with XKeyboard | XControl _ => e | _ => XControl (brief e) end.
Definition on_init (e : exn) : exn :=
  match e with XControl _ | XKeyboard | XExit => e | _ => XRing (str "unhandled error in control file:" ++ nl ++ traceback e) end.

Lemma ends_init q h : (q = InitRingmaster \/ q = InitCompetition) ->
  ends (fun e => plain (on_control e)) h (fun p => p = [q]) (fun a l => l = [Called q (Good a)]) (wrap_init traceback (ask w q) h).
Proof.
  intros I. apply (ends_catch _ on_init); [intros e h1; destruct e; reflexivity|].
  apply ends_ask; [destruct I as [->| ->]; apply silent_opening|destruct I as [->| ->]; exact Logic.I|]. intros e. destruct I as [->| ->]; destruct e; reflexivity.
Qed.

Lemma ends_load_control h0 (E0 : h0 = [Called ControlExists (Good true)]) :
  ends (fun e => plain (on_control e)) h0 (fun p => p = [ReadControl; Interpret; InitRingmaster; InitCompetition])
    (fun skip l => skipped l = skip /\ In (Called InitRingmaster (Good skip)) l) (load_control_file w decodes brief traceback h0).
Proof.
  unfold load_control_file. eapply ends_impl; [| |eapply (ends_bind _ h0 (fun p => p = [ReadControl]) (fun _ p => p = [Interpret; InitRingmaster; InitCompetition]))].
  - intros p (a & p1 & p2 & -> & -> & ->). reflexivity.
  - intros a l H. exact H.
  - apply (ends_catch _ on_read); [intros e h1; destruct e; reflexivity|]. apply ends_ask; [apply silent_opening|exact Logic.I|]. intros e. destruct e; reflexivity.
  - exists [], [Interpret; InitRingmaster; InitCompetition]. reflexivity.
  - intros s l ->.
    destruct (parse_competition_type s) as [t|e1] eqn:PT.
    2:{ apply ends_refused; [eexists; reflexivity|]. eapply no_type; [reflexivity|exact PT]. }
    destruct (get_competition_class t) as [cl|e1] eqn:GC.
    2:{ apply ends_refused; [eexists; reflexivity|]. eapply unknown_type; [reflexivity|exact PT|exact GC]. }
    destruct (decodes s) eqn:DS; cbn [negb].
    2:{ apply ends_refused; [eexists; reflexivity|]. eapply not_utf8; [reflexivity|exact DS]. }
    eapply ends_impl; [| |eapply (ends_bind _ _ (fun p => p = [Interpret]) (fun _ p => p = [InitRingmaster; InitCompetition]))].
    + intros p (a & p1 & p2 & -> & -> & ->). reflexivity.
    + intros a l H. exact H.
    + apply (ends_catch _ on_interpret); [intros e h1; destruct e; reflexivity|]. apply ends_ask; [apply silent_opening|exact Logic.I|]. intros e. destruct e; reflexivity.
    + exists None. eexists. reflexivity.
    + intros ct l ->.
      assert (RF : ct <> Some t -> refused c control ((h0 ++ [Called ReadControl (Good (s : answer ReadControl))]) ++ [Called Interpret (Good (ct : answer Interpret))])
               (plain (on_control (XControl (str "competition_type improperly specified"))))).
      { intros N. eapply other_type; [rewrite <- app_assoc; reflexivity|exact PT|exact N]. }
      destruct ct as [u|]; [destruct (bytes_eqb_spec u t) as [EU|NU]|].
      2:{ apply ends_refused; [eexists; reflexivity|]. apply RF. congruence. }
      2:{ apply ends_refused; [eexists; reflexivity|]. apply RF. discriminate. }
      eapply ends_impl; [| |eapply (ends_bind _ _ (fun p => p = [InitRingmaster]) (fun _ p => p = [InitCompetition]))].
      * intros p (a & p1 & p2 & -> & -> & ->). reflexivity.
      * intros a l H. exact H.
      * apply ends_init. left. reflexivity.
      * exists true. eexists. reflexivity.
      * intros skip l ->. eapply ends_impl; [| |eapply (ends_bind _ _ (fun p => p = [InitCompetition]) (fun _ p => p = []))].
        -- intros p (a & p1 & p2 & -> & -> & ->). reflexivity.
        -- intros a l H. exact H.
        -- apply ends_init. right. reflexivity.
        -- exists tt, []. reflexivity.
        -- intros u2 l ->. apply ends_ret. split; [destruct skip; reflexivity|]. cbn. auto.
Qed.

Definition open_program : M bool :=
  bind (ask w ControlExists) (fun e =>
    if negb e then raise (XRing (str "control file " ++ control ++ str " not found")) else make_ringmaster w decodes brief traceback control).
Lemma ends_open : ends plain [] (fun p => p = opening)
  (fun skip l => skipped l = skip /\ In (Called InitRingmaster (Good skip)) l) (open_program []).
Proof.
  eapply ends_impl; [| |eapply (ends_bind _ [] (fun p => p = [ControlExists]) (fun _ p => p = [ReadControl; Interpret; InitRingmaster; InitCompetition]))].
  - intros p (a & p1 & p2 & -> & -> & ->). reflexivity.
  - intros a l H. exact H.
  - apply ends_ask; [apply silent_opening|exact Logic.I|]. intros e. destruct e; reflexivity.
  - exists true. eexists. reflexivity.
  - intros e l ->. destruct e; cbn [negb app].
    2:{ apply ends_refused; [eexists; reflexivity|]. apply no_control. reflexivity. }
    unfold make_ringmaster. destruct (existsb (bytes_eqb (extension control)) forbidden) eqn:X.
    + apply ends_refused; [eexists; reflexivity|]. eapply bad_name; [reflexivity|reflexivity|].
      apply existsb_exists in X. destruct X as (y & IN & Y). destruct (bytes_eqb_spec (extension control) y) as [<-|]; [|discriminate]. exact IN.
    + apply (ends_catch _ on_control); [intros e h1; destruct e; reflexivity|]. eapply ends_impl; [| |exact (ends_load_control _ eq_refl)]; [intros p H; exact H|].
      intros a l (H1 & H2). split; [exact H1|right; exact H2].
Qed.

(** ** The status file *)
Hypothesis silent_status : silent StatusExists /\ silent ReadStatus /\ (forall v s, silent (SetStatus v s)) /\ silent SetClean.

Definition on_load (e : exn) : exn :=
  match e with
  | XUnpickling _ => XRing (str "corrupt status file")
  | XEnvironment t => XRing (str "error loading status file:" ++ nl ++ t)
  | XKey t => XRing (str "incompatible status file: missing " ++ t)
  | XKeyboard | XExit => e
  | _ => XRing (str "incompatible status file")
  end.
Definition on_set (e : exn) : exn :=
  match e with
  | XCompetition t => XRing (str "error loading competition state: " ++ t)
  | XKey t => XRing (str "error loading competition state: missing " ++ t)
  | XKeyboard | XExit => e
  | _ => XRing (str "error loading competition state:" ++ nl ++ traceback e)
  end.

Lemma ends_read_status h : c <> Debugstatus ->
  ends (fun e => plain (on_load e)) h (fun p => p = [ReadStatus])
    (fun x l => l = [Called ReadStatus (Good (Pair 0 (mkStatus (Some comp_vn) (Some (fst x)) (Some (snd x)))))]) (read_status w comp_vn h).
Proof.
  intros ND. unfold read_status. eapply ends_impl; [| |eapply (ends_bind _ h (fun p => p = [ReadStatus]) (fun _ p => p = []))].
  - intros p (a & p1 & p2 & -> & -> & ->). reflexivity.
  - intros a l H. exact H.
  - apply ends_ask; [apply silent_status|exact Logic.I|]. intros e. destruct c, e; reflexivity || (exfalso; apply ND; reflexivity).
  - exists Strange, []. reflexivity.
  - intros p l ->.
    assert (RF : forall t, status_problem comp_vn p = Some t -> refused c control (h ++ [Called ReadStatus (Good p)]) (user t)).
    { intros t T. eapply bad_status; [exact ND|reflexivity|exact T]. }
    assert (EX : exists p0 : list call, p0 = []) by (eexists; reflexivity).
    destruct p as [v s|]; [|apply ends_refused; [exact EX|]; apply RF; reflexivity].
    unfold status_format_version. destruct (Z.eqb_spec v 0) as [-> |NV]; cbn [negb].
    2:{ apply ends_refused; [exact EX|]. apply RF. destruct v; [contradiction NV; reflexivity|reflexivity|reflexivity]. }
    destruct s as [vn void st]. cbn [sd_vn sd_void sd_comp] in *.
    destruct vn as [n|]; [|apply ends_refused; [exact EX|]; apply RF; reflexivity].
    unfold status_problem in RF. cbn [sd_vn sd_void sd_comp] in RF.
    destruct (Z.eqb_spec n comp_vn) as [-> |NN]; cbn [negb].
    2:{ apply ends_refused; [exact EX|]. apply RF. reflexivity. }
    destruct void as [v|]; [|apply ends_refused; [exact EX|]; apply RF; reflexivity].
    destruct st as [st|]; [|apply ends_refused; [exact EX|]; apply RF; reflexivity].
    apply ends_ret. reflexivity.
Qed.

(** The states that are loaded. *)
Definition loaded_from (l : history) : Prop :=
  exists void st, l = [Called ReadStatus (Good (Pair 0 (mkStatus (Some comp_vn) (Some void) (Some st)))); Called (SetStatus void st) (Good tt)].
Lemma ends_load_status h (st0 : ST) : c <> Debugstatus -> (exists l, h = l ++ [Called StatusExists (Good true)]) ->
  ends plain h (fun p => exists void st, p = [ReadStatus; SetStatus void st]) (fun (_ : unit) l => loaded_from l) (load_status w comp_vn traceback h).
Proof.
  intros ND (l0 & ->). unfold load_status.
  eapply ends_impl; [| |eapply (ends_bind _ (l0 ++ [Called StatusExists (Good true)]) (fun p => p = [ReadStatus]) (fun _ p => exists void st, p = [SetStatus void st]))].
  - intros p (a & p1 & p2 & -> & -> & v & st & ->). exists v, st. reflexivity.
  - intros a l H. exact H.
  - apply (ends_catch _ on_load); [intros e h1; destruct e; reflexivity|]. apply ends_read_status. exact ND.
  - exists (0, st0). eexists. exists 0, st0. reflexivity.
  - intros [void st] l ->. cbn [fst snd]. apply (ends_catch _ on_set); [intros e h1; destruct e; reflexivity|].
    eapply ends_impl; [| |apply (ends_ask _ _ (SetStatus void st))].
    + intros p ->. exists void, st. reflexivity.
    + intros [] l ->. exists void, st. reflexivity.
    + apply silent_status.
    + exists l0. unfold saved_state. rewrite <- app_assoc. reflexivity.
    + intros e. destruct e; reflexivity.
Qed.
End Proofs.
