(** Proofs about the 'ringmaster' command: the commands. *)
From Verif Require Import Base Bytes PyStr RingFilesModel CliModel CliSpec CliProofs CliStepProofs.
Open Scope Z_scope.

Section Proofs.
Context {ST : Type}.
Notation event := (@event ST).
Notation history := (@history ST).
Notation call := (@call ST).
Variable w : @world ST.
Variable decodes : bytes -> bool.
Variable comp_vn : Z.
Variable brief traceback : exn -> bytes.
Notation verdict := (verdict (ST:=ST) brief traceback).
Notation plain := (plain traceback).
Notation refused := (refused decodes comp_vn traceback).
Variable control : bytes.
Variable o : options.
Variable st0 : ST.
Notation ends c tl h ps Q x := (ends (A:=option Z) decodes comp_vn brief traceback c control o tl plain h ps Q x) (only parsing).
Notation tl c k := (said_of (ST:=ST) c o k) (only parsing).

Lemma silent_status_of c k : silent (tl c k) StatusExists /\ silent (tl c k) (@ReadStatus ST) /\
  (forall v s, silent (tl c k) (@SetStatus ST v s)) /\ silent (tl c k) SetClean.
Proof. repeat split. Qed.
Lemma silent_opening_of c k : silent (tl c k) ControlExists /\ silent (tl c k) ReadControl /\
  silent (tl c k) Interpret /\ silent (tl c k) InitRingmaster /\ silent (tl c k) InitCompetition.
Proof. repeat split. Qed.

Notation bind_ends c k h ps1 ps2 := (ends_bind decodes comp_vn brief traceback c control o (tl c k) plain h ps1 ps2) (only parsing).

Notation ask_ends c k h q := (ends_ask w decodes comp_vn brief traceback c control o (tl c k) plain h q) (only parsing).

(** ** stop, reset, debugstatus *)
Lemma ends_stop k h : ends Stop (tl Stop k) h (fun p => p = [WriteCommand (str "stop")]) (fun x _ => x = None) (bind (write_command w (str "stop")) (fun _ => ret None) h).
Proof.
  eapply ends_impl; [| |eapply (bind_ends Stop k h (fun p => p = [WriteCommand (str "stop")]) (fun _ p => p = []))].
  - intros p (a & p1 & p2 & -> & -> & ->). reflexivity.
  - intros a l Q. exact Q.
  - unfold write_command. apply (ends_catch decodes comp_vn brief traceback Stop control o (tl Stop k) plain
      (fun e => match e with XEnvironment t => XRing (str "error writing command file:" ++ nl ++ t) | _ => e end)); [intros e h1; destruct e; reflexivity|].
    apply ends_ask; [intros r; reflexivity|split; reflexivity|]. intros e. destruct e; reflexivity.
  - exists tt, []. reflexivity.
  - intros [] l E. apply ends_ret. reflexivity.
Qed.
Lemma ends_reset k h : ends Reset (tl Reset k) h (fun p => p = [DeleteAll]) (fun x _ => x = None) (bind (ask w DeleteAll) (fun _ => ret None) h).
Proof.
  eapply ends_impl; [| |eapply (bind_ends Reset k h (fun p => p = [DeleteAll]) (fun _ p => p = []))].
  - intros p (a & p1 & p2 & -> & -> & ->). reflexivity.
  - intros a l Q. exact Q.
  - apply ends_ask; [intros r; reflexivity|reflexivity|]. intros e. destruct e; reflexivity.
  - exists tt, []. reflexivity.
  - intros [] l E. apply ends_ret. reflexivity.
Qed.
Lemma ends_debug k h : ends Debugstatus (tl Debugstatus k) h (fun p => p = [ReadStatus; PrintStatus]) (fun x _ => x = None) (bind (print_status w) (fun _ => ret None) h).
Proof.
  eapply ends_impl; [| |eapply (bind_ends Debugstatus k h (fun p => p = [ReadStatus; PrintStatus]) (fun _ p => p = []) (fun _ _ => True))].
  - intros p (a & p1 & p2 & -> & -> & ->). reflexivity.
  - intros a l Q. exact Q.
  - unfold print_status. eapply ends_impl; [| |eapply (bind_ends Debugstatus k h (fun p => p = [ReadStatus]) (fun _ p => p = [PrintStatus]))].
    + intros p (a & p1 & p2 & -> & -> & ->). reflexivity.
    + intros a l Q. exact Q.
    + apply ends_ask; [intros r; reflexivity|exact I|]. intros e. destruct e; reflexivity.
    + exists Strange. eexists. reflexivity.
    + intros p l ->. destruct p as [v s|].
      * eapply ends_impl; [| |apply (ask_ends Debugstatus k _ PrintStatus)]; [intros p H; exact H|intros a l H; exact I|intros r; reflexivity|exact I|intros e; destruct e; reflexivity].
      * apply ends_refused; [eexists; reflexivity|]. eapply odd_status; reflexivity.
  - exists tt, []. reflexivity.
  - intros [] l E. apply ends_ret. reflexivity.
Qed.

(** ** show and report *)
Lemma ends_with_status c k h q (kk : answer q -> M (option Z)) : c = Show /\ q = ShortReport \/ c = Report /\ q = WriteReport -> (forall a h1, kk a h1 = (h1, Good None)) ->
  ends c (tl c k) h (fun p => exists void st, p = loading void st ++ [q]) (fun x _ => x = None) (with_status w comp_vn traceback q kk h).
Proof.
  intros CQ KK. unfold with_status.
  assert (ND : c <> Debugstatus) by (destruct CQ as [(-> & _)|(-> & _)]; discriminate).
  eapply ends_impl; [| |eapply (bind_ends c k h (fun p => p = [StatusExists]) (fun _ p => exists void st, p = [ReadStatus; SetStatus void st] ++ [q]))].
  - intros p (a & p1 & p2 & -> & -> & v & st & ->). exists v, st. reflexivity.
  - intros a l Q. exact Q.
  - apply ends_ask; [intros r; reflexivity|destruct CQ as [(-> & _)|(-> & _)]; cbn; auto|]. intros e.
    destruct e; reflexivity.
  - exists true. eexists. exists 0, st0. reflexivity.
  - intros e l ->. destruct e; cbn [negb].
    2:{ apply ends_refused; [eexists; exists 0, st0; reflexivity|]. eapply no_status; [destruct CQ as [(-> & _)|(-> & _)]; auto|reflexivity]. }
    eapply ends_impl; [| |eapply (bind_ends c k _ (fun p => exists void st, p = [ReadStatus; SetStatus void st]) (fun _ p => p = [q]))].
    + intros p (a & p1 & p2 & -> & (v & st & ->) & ->). exists v, st. reflexivity.
    + intros a l Q. exact Q.
    + apply ends_load_status; [apply silent_status_of|exact st0|exact ND|]. eexists. reflexivity.
    + exists tt. eexists. reflexivity.
    + intros [] l (void & st & ->).
      eapply ends_impl; [| |eapply (bind_ends c k _ (fun p => p = [q]) (fun _ p => p = []))].
      * intros p (a & p1 & p2 & -> & -> & ->). reflexivity.
      * intros a l Q. exact Q.
      * apply ends_ask.
        -- intros r. destruct CQ as [(_ & ->)|(_ & ->)]; reflexivity.
        -- assert (SL : state_loaded comp_vn ((h ++ [Called StatusExists (Good (true : answer StatusExists))]) ++
             [Called ReadStatus (Good (Pair 0 {| sd_vn := Some comp_vn; sd_void := Some void; sd_comp := Some st |} : answer ReadStatus)); Called (SetStatus void st) (Good (tt : answer (SetStatus void st)))])).
           { exists void, st, h, []. rewrite <- app_assoc. reflexivity. }
           destruct CQ as [(-> & ->)|(-> & ->)]; cbn; auto.
        -- intros e. destruct CQ as [(-> & ->)|(-> & ->)]; destruct e; reflexivity.
      * destruct CQ as [(_ & ->)|(_ & ->)]; exists tt, []; reflexivity.
      * intros a l E. rewrite KK. apply ends_ret. reflexivity.
Qed.

(** ** run, once the players are checked *)
Definition tail_program : M (option Z) :=
  bind (ask w StatusExists) (fun e =>
  bind (if e then load_status w comp_vn traceback else set_clean_status w) (fun _ =>
  bind (run_competition w (o_log_gtp o) (o_quiet o) (o_parallel o) (o_max_games o)) (fun _ =>
  bind (ask w WriteReport) (fun _ => ret None)))).
Definition final_calls : list call :=
  [OpenFiles (o_log_gtp o); RunJobs (o_quiet o) (o_parallel o) (o_max_games o); CloseFiles; WriteReport].

Lemma ends_final k h : checks_done h -> (state_loaded comp_vn h \/ state_clean h) ->
  ends Run (tl Run k) h (fun p => p = final_calls) (fun x _ => x = None)
    (bind (run_competition w (o_log_gtp o) (o_quiet o) (o_parallel o) (o_max_games o)) (fun _ => bind (ask w WriteReport) (fun _ => ret None)) h).
Proof.
  intros CD SL.
  assert (MC : forall l, checks_done (h ++ l)).
  { intros l. destruct CD as (codes & I1 & I2). exists codes. split; [apply in_or_app; auto|].
    destruct I2 as [I2|I2]; [left; apply in_or_app; auto|]. right. intros code IN. destruct (I2 code IN) as (m & I3). exists m. apply in_or_app. auto. }
  assert (MS : forall l, state_loaded comp_vn (h ++ l) \/ state_clean (h ++ l)).
  { intros l. destruct SL as [(v & st & l1 & l2 & ->)|(l1 & l2 & ->)]; [left; exists v, st, l1, (l2 ++ l)|right; exists l1, (l2 ++ l)]; rewrite <- !app_assoc; reflexivity. }
  eapply ends_impl; [| |eapply (bind_ends Run k h (fun p => p = [OpenFiles (o_log_gtp o); RunJobs (o_quiet o) (o_parallel o) (o_max_games o); CloseFiles]) (fun _ p => p = [WriteReport])
     (fun _ l => exists l1 r, l = l1 ++ [Called (RunJobs (o_quiet o) (o_parallel o) (o_max_games o)) (Good tt); Called CloseFiles r]))].
  - intros p (a & p1 & p2 & -> & -> & ->). reflexivity.
  - intros a l Q. exact Q.
  - unfold run_competition.
    eapply ends_impl; [| |eapply (bind_ends Run k h (fun p => p = [OpenFiles (o_log_gtp o)]) (fun _ p => p = [RunJobs (o_quiet o) (o_parallel o) (o_max_games o); CloseFiles]))].
    + intros p (a & p1 & p2 & -> & -> & ->). reflexivity.
    + intros a l Q. exact Q.
    + apply ends_ask; [intros r; reflexivity|cbn; auto|]. intros e. destruct e; reflexivity.
    + exists tt. eexists. reflexivity.
    + intros [] l ->.
      eapply ends_impl; [| |eapply (bind_ends Run k _ (fun p => p = [RunJobs (o_quiet o) (o_parallel o) (o_max_games o)]) (fun _ p => p = [CloseFiles]))].
      * intros p (a & p1 & p2 & -> & -> & ->). reflexivity.
      * intros a l Q. exact Q.
      * apply (ends_catch decodes comp_vn brief traceback Run control o (tl Run k) plain
          (fun e => match e with XRing t => XRing t | XCompetition t => XRing t | XJobSource t => XInternal t | XInternal t => XInternal t | _ => e end));
          [intros e h1; destruct e; reflexivity|].
        apply ends_ask; [intros r; reflexivity| |intros e; destruct e; reflexivity].
        cbn. repeat (split; [reflexivity|]). split; [apply MC|]. split; [apply MS|]. exists h. reflexivity.
      * exists tt. eexists. reflexivity.
      * intros [] l ->. eapply ends_impl; [| |apply (ask_ends Run k _ CloseFiles)].
        -- intros p H. exact H.
        -- intros a l ->. exists [Called (OpenFiles (o_log_gtp o)) (Good tt)], (Good a). reflexivity.
        -- intros r; reflexivity.
        -- exact I.
        -- intros e; destruct e; reflexivity.
  - exists tt. eexists. reflexivity.
  - intros [] l (l1 & r & ->). eapply ends_impl; [| |eapply (bind_ends Run k _ (fun p => p = [WriteReport]) (fun _ p => p = []))].
    + intros p (a & p1 & p2 & -> & -> & ->). reflexivity.
    + intros a l Q. exact Q.
    + apply ends_ask; [intros r1; reflexivity| |intros e; destruct e; reflexivity]. cbn. left. split; [reflexivity|]. exists (h ++ l1), r. rewrite <- app_assoc. reflexivity.
    + exists tt, []. reflexivity.
    + intros [] l E. apply ends_ret. reflexivity.
Qed.

Lemma ends_tail k h : checks_done h ->
  ends Run (tl Run k) h (fun p => exists l, (l = [StatusExists; SetClean] \/ exists void st, l = loading void st) /\ p = l ++ final_calls) (fun x _ => x = None) (tail_program h).
Proof.
  intros CD.
  assert (MC : forall l, checks_done (h ++ l)).
  { intros l. destruct CD as (codes & I1 & I2). exists codes. split; [apply in_or_app; auto|].
    destruct I2 as [I2|I2]; [left; apply in_or_app; auto|]. right. intros code IN. destruct (I2 code IN) as (m & I3). exists m. apply in_or_app. auto. }
  unfold tail_program.
  eapply ends_impl; [| |eapply (bind_ends Run k h (fun p => p = [StatusExists]) (fun _ p => exists l, (l = [SetClean] \/ exists void st, l = [ReadStatus; SetStatus void st]) /\ p = l ++ final_calls))].
  - intros p (a & p1 & p2 & -> & -> & l & L & ->). exists (StatusExists :: l). split; [|reflexivity].
    destruct L as [->|(v & st & ->)]; [left; reflexivity|right; exists v, st; reflexivity].
  - intros a l Q. exact Q.
  - apply ends_ask; [intros r; reflexivity|right; right; auto|]. intros e. destruct e; reflexivity.
  - exists true. eexists. exists [SetClean]. split; [left; reflexivity|reflexivity].
  - intros e l ->.
    eapply ends_impl; [| |eapply (bind_ends Run k _ (fun p => p = [SetClean] \/ exists void st, p = [ReadStatus; SetStatus void st]) (fun _ p => p = final_calls)
       (fun _ l => state_loaded comp_vn ((h ++ [Called StatusExists (Good e)]) ++ l) \/ state_clean ((h ++ [Called StatusExists (Good e)]) ++ l)))].
    + intros p (a & p1 & p2 & -> & P & ->). exists p1. auto.
    + intros a l Q. exact Q.
    + destruct e.
      * eapply ends_impl; [| |apply ends_load_status; [apply silent_status_of|exact st0|discriminate|eexists; reflexivity]].
        -- intros p H. right. exact H.
        -- intros [] l (v & st & ->). left. exists v, st, h, []. rewrite <- app_assoc. reflexivity.
      * unfold set_clean_status. apply (ends_catch decodes comp_vn brief traceback Run control o (tl Run k) plain
          (fun e => match e with XCompetition t => XRing t | _ => e end)); [intros e h1; destruct e; reflexivity|].
        eapply ends_impl; [| |apply (ends_ask w decodes comp_vn brief traceback Run control o (tl Run k) _ _ SetClean)].
        -- intros p H. left. exact H.
        -- intros a l ->. right. exists h, []. rewrite <- app_assoc. destruct a. reflexivity.
        -- intros r. reflexivity.
        -- split; [reflexivity|]. exists h. reflexivity.
        -- intros e; destruct e; reflexivity.
    + exists tt. eexists. reflexivity.
    + intros [] l SL. apply ends_final; [rewrite <- app_assoc; apply MC|exact SL].
Qed.
End Proofs.
