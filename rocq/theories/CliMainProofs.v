(** Proofs about the 'ringmaster' command: the whole of it. *)
From Verif Require Import Base Bytes PyStr RingFilesModel CliModel CliSpec CliProofs CliStepProofs CliActProofs.
Open Scope Z_scope.

Section Proofs.
Context {ST : Type}.
Notation event := (@event ST).
Notation history := (@history ST).
Notation call := (@call ST).
Variable w : @world ST.
Variable decodes : bytes -> bool.
Variable comp_vn : Z.
Variable brief traceback : exn -> bytes.
Notation verdict := (verdict (ST:=ST) brief traceback).
Notation plain := (plain traceback).
Notation refused := (refused decodes comp_vn traceback).
Variable control : bytes.
Variable o : options.
Variable st0 : ST.
Notation ends c tl h ps Q x := (ends (A:=option Z) decodes comp_vn brief traceback c control o tl plain h ps Q x) (only parsing).
Notation tl c k := (said_of (ST:=ST) c o k) (only parsing).

(** How a command may end after the control file was read. *)
Definition act_ok (c : command) (k : bool) (h : history) (x : history * outcome (option Z)) : Prop :=
  exists l, fst x = h ++ l /\ complaints l = [] /\ said l = flat_map (tl c k) l /\
    (forall l1 q r l2, l = l1 ++ Called q r :: l2 -> ready comp_vn c o q (h ++ l1)) /\
    (exists codes p, planned o codes c p /\ prefix (calls l) p /\ (snd x = Good None -> calls l = p)) /\
    match snd x with
    | Good None => raises l = []
    | Good (Some n) => exists l1 q e l2, l = l1 ++ Called q (Raise e) :: l2 /\ raises l1 = [] /\ calls l2 = [] /\ (n, []) = verdict c q e
    | Raise e =>
        (exists l1 q e', l = l1 ++ [Called q (Raise e')] /\ raises l1 = [] /\ plain e = verdict c q e') \/
        (raises l = [] /\ refused c control (h ++ l) (plain e))
    end.

Lemma act_of_ends c k h (ps : list call -> Prop) x : (forall p, ps p -> exists codes, planned o codes c p) ->
  ends c (tl c k) h ps (fun y _ => y = None) x -> act_ok c k h x.
Proof.
  intros P (l & E & C & S & J & H). exists l. split; [exact E|]. split; [exact C|]. split; [exact S|]. split; [exact J|].
  destruct (snd x) as [y|e].
  - destruct H as (R & PS & ->). destruct (P _ PS) as (codes & PL). split; [exists codes, (calls l); split; [exact PL|]; split; [exists []; rewrite app_nil_r; reflexivity|reflexivity]|exact R].
  - destruct H as ((p & PS & PR) & H). destruct (P _ PS) as (codes & PL). split; [exists codes, p; split; [exact PL|]; split; [exact PR|discriminate]|exact H].
Qed.

Lemma in_calls (l l1 : history) q r l2 : l = l1 ++ Called q r :: l2 -> In q (calls l).
Proof. intros ->. rewrite calls_app. apply in_or_app. right. left. reflexivity. Qed.

(** The part before the players are checked. *)
Definition hello (c : command) : history := match c, o_quiet o with Run, false => [Said (str "running startup checks on all players")] | _, _ => [] end.
Definition skip_line (c : command) (k : bool) (codes : list bytes) : history :=
  match c, o_quiet o with
  | Run, false => if k then [Said (str "skipping " ++ str_int (Z.of_nat (List.length codes)) ++ str " Player checks")] else []
  | _, _ => []
  end.

Lemma hello_reads c : calls (hello c) = [] /\ complaints (hello c) = [] /\ raises (hello c) = [].
Proof. unfold hello. destruct c, (o_quiet o); repeat split. Qed.
Lemma skip_reads c k codes : calls (skip_line c k codes) = [] /\ complaints (skip_line c k codes) = [] /\ raises (skip_line c k codes) = [].
Proof. unfold skip_line. destruct c, (o_quiet o), k; repeat split. Qed.
Lemma asked_said c k (codes : list bytes) :
  said (hello c ++ [Called PlayerChecks (Good (codes : answer PlayerChecks))] ++ skip_line c k codes) = flat_map (tl c k) (hello c ++ [Called PlayerChecks (Good (codes : answer PlayerChecks))] ++ skip_line c k codes).
Proof. unfold hello, skip_line. destruct c, (o_quiet o) eqn:QQ, k; cbn; rewrite ?QQ; reflexivity. Qed.
Lemma asked_raise c k e :
  said (hello c ++ [Called PlayerChecks (Raise e)]) = flat_map (tl c k) (hello c ++ [Called PlayerChecks (Raise e)]).
Proof. unfold hello. destruct c, (o_quiet o) eqn:QQ, k; cbn; rewrite ?QQ; reflexivity. Qed.

(** Each call in that part, and in the checks, is made when it's time to. *)
Lemma asked_ready c k h (codes : list bytes) rest :
  (forall q, In q (calls rest) -> exists code d, q = CheckPlayer code d /\ In code codes) ->
  forall l1 q r l2, (hello c ++ [Called PlayerChecks (Good (codes : answer PlayerChecks))] ++ skip_line c k codes) ++ rest = l1 ++ Called q r :: l2 -> ready comp_vn c o q (h ++ l1).
Proof.
  intros RD l1 q r l2 E. destruct (app_split _ _ _ _ _ E) as [(m & M)|(m & -> & M)].
  - pose proof (in_calls _ _ _ _ _ M) as IN. rewrite !calls_app, (proj1 (hello_reads c)), (proj1 (skip_reads c k codes)) in IN.
    cbn in IN. destruct IN as [<-|[]]. exact I.
  - destruct (RD q (in_calls _ _ _ _ _ M)) as (code & d & -> & IN). cbn. exists codes. split; [|exact IN].
    apply in_or_app. right. apply in_or_app. left. apply in_or_app. right. left. reflexivity.
Qed.

Lemma checks_done_skip h (codes : list bytes) c : In (Called InitRingmaster (Good (true : answer InitRingmaster))) h ->
  checks_done (h ++ hello c ++ [Called PlayerChecks (Good (codes : answer PlayerChecks))] ++ skip_line c true codes).
Proof.
  intros IN. exists codes. split; [|left; apply in_or_app; left; exact IN].
  apply in_or_app. right. apply in_or_app. right. left. reflexivity.
Qed.
Lemma fines_in d ps code (msgs : list bytes) : In (code, msgs) ps -> In (Called (CheckPlayer code d) (Good (msgs : answer (CheckPlayer code d)))) (fines (ST:=ST) d ps).
Proof.
  intros IN. unfold fines. apply in_flat_map. exists (code, msgs). split; [exact IN|]. unfold fine. cbn [fst snd]. apply in_or_app. right. left. reflexivity.
Qed.
Lemma checks_done_fines h (codes : list bytes) c k ps : map fst ps = codes ->
  checks_done (h ++ (hello c ++ [Called PlayerChecks (Good (codes : answer PlayerChecks))] ++ skip_line c k codes) ++ fines true ps).
Proof.
  intros <-. exists (map fst ps). split.
  - apply in_or_app. right. apply in_or_app. left. apply in_or_app. right. left. reflexivity.
  - right. intros code IN. apply in_map_iff in IN. destruct IN as ((c1 & msgs) & <- & IN). exists msgs.
    apply in_or_app. right. apply in_or_app. right. exact (fines_in true ps c1 msgs IN).
Qed.

(** The rest of a 'run' after the checks. *)
Lemma act_prepend k h l0 codes cs x :
  complaints l0 = [] -> said l0 = flat_map (tl Run k) l0 -> raises l0 = [] ->
  (forall l1 q r l2, l0 = l1 ++ Called q r :: l2 -> ready comp_vn Run o q (h ++ l1)) ->
  calls l0 = PlayerChecks :: map (fun c => CheckPlayer c true) cs -> cs = [] \/ cs = codes ->
  ends Run (tl Run k) (h ++ l0) (fun p => exists l, (l = [StatusExists; SetClean] \/ exists void st, l = loading void st) /\ p = l ++ final_calls o) (fun y _ => y = None) x ->
  act_ok Run k h x.
Proof.
  intros C0 S0 R0 J0 L0 CS (l & E & C & S & J & H). exists (l0 ++ l).
  split; [rewrite app_assoc; exact E|]. split; [rewrite complaints_app, C0, C; reflexivity|].
  split; [rewrite said_app, flat_map_app, S0, S; reflexivity|].
  split.
  { intros l1 q r l2 X. destruct (app_split _ _ _ _ _ X) as [(m & M)|(m & -> & M)]; [exact (J0 _ _ _ _ M)|]. rewrite app_assoc. exact (J _ _ _ _ M). }
  assert (PL : forall p, (exists l, (l = [StatusExists; SetClean] \/ exists void st, l = loading void st) /\ p = l ++ final_calls o) -> planned o codes Run (calls l0 ++ p)).
  { intros p (l' & L' & ->). rewrite L0. cbn [app]. exact (plan_run o codes cs l' CS L'). }
  destruct (snd x) as [y|e].
  - destruct H as (R & PS & ->). split; [|rewrite raises_app, R0, R; reflexivity].
    exists codes, (calls (l0 ++ l)). rewrite calls_app. split; [exact (PL _ PS)|]. split; [exists []; rewrite app_nil_r; reflexivity|reflexivity].
  - destruct H as ((p & PS & (r & PR)) & H). split.
    { exists codes, (calls l0 ++ p). split; [exact (PL _ PS)|]. split; [|discriminate]. exists r. rewrite calls_app, PR, app_assoc. reflexivity. }
    destruct H as [(l1 & q & e' & -> & R1 & V)|(R & RF)].
    + left. exists (l0 ++ l1), q, e'. rewrite app_assoc, raises_app, R0, R1. auto.
    + right. rewrite raises_app, R0, R, app_assoc. auto.
Qed.

(** The checks: up to a failure, or all. *)
Lemma check_fails c d k h (codes : list bytes) ps code rest e :
  (c = Run /\ d = true \/ c = Check /\ d = false) -> codes = map fst ps ++ code :: rest ->
  let l := (hello c ++ [Called PlayerChecks (Good (codes : answer PlayerChecks))] ++ skip_line c k codes) ++ fines d ps ++ broken d code e in
  complaints l = [] /\
  said l ++ (match c, e with Run, XCheck _ => [str "(use the 'check' command to see stderr output)"] | _, _ => [] end) = flat_map (tl c k) l /\
  (forall l1 q r l2, l = l1 ++ Called q r :: l2 -> ready comp_vn c o q (h ++ l1)) /\
  (exists codes p, planned o codes c p /\ prefix (calls l) p) /\
  exists l1 l2, l = l1 ++ Called (CheckPlayer code d) (Raise e) :: l2 /\ raises l1 = [] /\ calls l2 = [] /\ (l2 = [] \/ exists t', e = XCheck t').
Proof.
  intros CD EC l. destruct (fines_reads (ST:=ST) c o k d ps) as (F1 & F2 & F3 & F4). destruct (broken_reads (ST:=ST) c o k d code e) as (B1 & B2 & B3 & B4).
  destruct (hello_reads c) as (G1 & G2 & G3). destruct (skip_reads c k codes) as (K1 & K2 & K3).
  split; [unfold l; rewrite !complaints_app, F3, B3, G2, K2; reflexivity|].
  split.
  { unfold l. rewrite said_app, flat_map_app, asked_said, said_app, (flat_map_app _ (fines d ps)), F2, <- B2, <- !app_assoc. reflexivity. }
  split.
  { apply asked_ready. intros q IN. rewrite calls_app, F1, B1 in IN. apply in_app_or in IN. destruct IN as [IN|[<-|[]]].
    - apply in_map_iff in IN. destruct IN as (y & <- & IN). exists y, d. split; [reflexivity|]. rewrite EC. apply in_or_app. auto.
    - exists code, d. split; [reflexivity|]. rewrite EC. apply in_or_app. right. left. reflexivity. }
  split.
  { assert (CL : calls l = PlayerChecks :: map (fun y => CheckPlayer y d) (map fst ps ++ [code])).
    { unfold l. rewrite !calls_app, F1, B1, G1, K1, map_app. reflexivity. }
    assert (SP : map fst ps ++ code :: rest = (map fst ps ++ [code]) ++ rest) by (rewrite <- app_assoc; reflexivity).
    exists codes. destruct CD as [(-> & ->)|(-> & ->)].
    - eexists. split; [exact (plan_run o codes codes [StatusExists; SetClean] (or_intror eq_refl) (or_introl eq_refl))|].
      rewrite CL, EC, SP. eexists. cbn [app]. f_equal.
      rewrite map_app, <- app_assoc. reflexivity.
    - eexists. split; [exact (plan_check o codes)|].
      rewrite CL, EC, SP. eexists. cbn [app]. f_equal.
      rewrite map_app. reflexivity. }
  exists ((hello c ++ [Called PlayerChecks (Good (codes : answer PlayerChecks))] ++ skip_line c k codes) ++ fines d ps ++ (if d then [] else [Said (str "checking player " ++ code)])),
    (match e with XCheck t => [Said (str "player " ++ code ++ str " failed startup check:" ++ nl ++ t)] | _ => [] end).
  split; [unfold l, broken; rewrite <- !app_assoc; reflexivity|].
  split; [rewrite !raises_app, F4, G3, K3; destruct d; reflexivity|].
  split; [destruct e; reflexivity|]. destruct e; eauto.
Qed.

Definition on_checks (e : exn) : exn := match e with XCompetition t => XRing t | _ => e end.
Lemma check_players_unfold c k d h : (c = Run /\ d = true \/ c = Check /\ d = false) ->
  let h1 := h ++ hello c in
  check_players w k d (o_quiet o) h1 =
  match w PlayerChecks h1 with
  | Raise e => (h1 ++ [Called PlayerChecks (Raise e)], Raise (on_checks e))
  | Good codes =>
      if k && d then (h ++ hello c ++ [Called PlayerChecks (Good codes)] ++ skip_line c k codes, Good true)
      else check_each w codes d (h ++ hello c ++ [Called PlayerChecks (Good codes)] ++ [])
  end.
Proof.
  intros CD h1. unfold check_players, bind, catch, ask. destruct (w PlayerChecks h1) as [codes|e]; [|destruct e; reflexivity].
  destruct CD as [(-> & ->)|(-> & ->)].
  - rewrite andb_true_r. destruct k.
    + unfold when, skip_line, h1, say, ret, bind. destruct (o_quiet o); cbn [negb]; rewrite <- ?app_assoc, ?app_nil_r; reflexivity.
    + unfold h1. rewrite app_nil_r, <- app_assoc. reflexivity.
  - rewrite andb_false_r. unfold h1. change (hello Check) with (@nil event). rewrite !app_nil_r. reflexivity.
Qed.

Lemma act_run k h : In (Called InitRingmaster (Good (k : answer InitRingmaster))) h ->
  act_ok Run k h (do_run w comp_vn traceback k o h).
Proof.
  intros IN. unfold do_run. unfold bind at 1.
  replace (when (negb (o_quiet o)) (say (str "running startup checks on all players")) h) with (h ++ hello Run, @Good unit tt)
    by (unfold when, hello, say, ret; destruct (o_quiet o); cbn [negb]; rewrite ?app_nil_r; reflexivity).
  unfold bind at 1. rewrite (check_players_unfold Run k true h (or_introl (conj eq_refl eq_refl))). cbv zeta.
  destruct (hello_reads Run) as (G1 & G2 & G3).
  destruct (w PlayerChecks (h ++ hello Run)) as [codes|e].
  2:{ exists (hello Run ++ [Called PlayerChecks (Raise e)]). cbn [fst snd]. split; [rewrite app_assoc; reflexivity|].
      split; [rewrite complaints_app, G2; reflexivity|]. split; [apply asked_raise|]. split.
      { intros l1 q r l2 E. pose proof (in_calls _ _ _ _ _ E) as I1. rewrite calls_app, G1 in I1. destruct I1 as [<-|[]]. exact I. }
      split.
      { exists []. eexists. split; [exact (plan_run o [] [] [StatusExists; SetClean] (or_introl eq_refl) (or_introl eq_refl))|].
        split; [|discriminate]. rewrite calls_app, G1. eexists. reflexivity. }
      left. exists (hello Run), PlayerChecks, e. split; [reflexivity|]. split; [exact G3|]. destruct e; reflexivity. }
  rewrite andb_true_r. destruct k.
  - destruct (skip_reads Run true codes) as (K1 & K2 & K3). cbn [negb].
    apply (act_prepend true h (hello Run ++ [Called PlayerChecks (Good codes)] ++ skip_line Run true codes) codes []).
    + rewrite !complaints_app, G2, K2. reflexivity.
    + apply asked_said.
    + rewrite !raises_app, G3, K3. reflexivity.
    + intros l1 q r l2 E. apply (asked_ready Run true h codes [] (fun q (F : In q (calls [])) => match F with end) l1 q r l2). rewrite app_nil_r. exact E.
    + rewrite !calls_app, G1, K1. reflexivity.
    + left. reflexivity.
    + apply (ends_tail w decodes comp_vn brief traceback control o st0 true). apply checks_done_skip. exact IN.
  - assert (K0 : skip_line Run false codes = []) by (unfold skip_line; destruct (o_quiet o); reflexivity).
    replace (h ++ hello Run ++ [Called PlayerChecks (Good codes)] ++ []) with (h ++ hello Run ++ [Called PlayerChecks (Good codes)] ++ skip_line Run false codes) by (rewrite K0; reflexivity).
    destruct (check_each_history w true codes (h ++ hello Run ++ [Called PlayerChecks (Good codes)] ++ skip_line Run false codes)) as (evs & r & E & CK).
    rewrite E. destruct CK as [ps P|ps code rest e P].
    + destruct (fines_reads (ST:=ST) Run o false true ps) as (F1 & F2 & F3 & F4). cbn [negb].
      rewrite <- app_assoc. change ((bind (ask w StatusExists) _) ?hh) with (tail_program w comp_vn traceback o hh).
      apply (act_prepend false h ((hello Run ++ [Called PlayerChecks (Good codes)] ++ skip_line Run false codes) ++ fines true ps) codes codes).
      * rewrite !complaints_app, G2, K0, F3. reflexivity.
      * rewrite said_app, flat_map_app, asked_said, F2. reflexivity.
      * rewrite !raises_app, G3, K0, F4. reflexivity.
      * apply asked_ready. intros q IQ. rewrite F1 in IQ. apply in_map_iff in IQ. destruct IQ as (y & <- & IY). exists y, true. rewrite <- P. auto.
      * rewrite !calls_app, G1, K0, F1, P. reflexivity.
      * right. reflexivity.
      * apply (ends_tail w decodes comp_vn brief traceback control o st0 false). apply checks_done_fines. exact P.
    + destruct (check_fails Run true false h codes ps code rest e (or_introl (conj eq_refl eq_refl)) P) as (X1 & X2 & X3 & (cs & p & X4 & X5) & l1 & l2 & X6 & X7 & X8 & X9).
      set (l := (hello Run ++ [Called PlayerChecks (Good codes)] ++ skip_line Run false codes) ++ fines true ps ++ broken true code e) in *.
      assert (EL : (h ++ hello Run ++ [Called PlayerChecks (Good codes)] ++ skip_line Run false codes) ++ fines true ps ++ broken true code e = h ++ l)
        by (unfold l; rewrite <- !app_assoc; reflexivity).
      rewrite EL. 
      destruct e as [t|t|t|t|t|t|t|t|t|t| |].
      5:{ cbn [negb]. exists (l ++ [Said (str "(use the 'check' command to see stderr output)")]). unfold bind, say, ret. cbn [fst snd].
          split; [rewrite app_assoc; reflexivity|]. split; [rewrite complaints_app, X1; reflexivity|].
          split; [rewrite said_app, flat_map_app, <- X2; cbn; rewrite app_nil_r; reflexivity|].
          split. { intros m1 q r m2 EM. destruct (app_split _ _ _ _ _ EM) as [(m & M)|(m & -> & M)]; [exact (X3 _ _ _ _ M)|]. destruct m as [|? [|? ?]]; discriminate M. }
          split. { exists cs, p. split; [exact X4|]. split; [|discriminate]. rewrite calls_app. cbn. rewrite app_nil_r. exact X5. }
          exists l1, (CheckPlayer code true), (XCheck t), (l2 ++ [Said (str "(use the 'check' command to see stderr output)")]).
          rewrite X6, <- app_assoc, calls_app, X8. repeat split. exact X7. }
      all: exists l; cbn [fst snd]; split; [reflexivity|]; split; [exact X1|]; split; [rewrite <- X2, app_nil_r; reflexivity|]; split; [exact X3|];
        split; [exists cs, p; split; [exact X4|]; split; [exact X5|discriminate]|];
        left; destruct X9 as [->|(t' & T)]; [|discriminate T];
        exists l1; eexists; eexists; split; [exact X6|]; split; [exact X7|reflexivity].
Qed.

Lemma act_check k h : act_ok Check k h (bind (check_players w k false (o_quiet o)) (fun ok => ret (if ok then None else Some 1)) h).
Proof.
  unfold bind. pose proof (check_players_unfold Check k false h (or_intror (conj eq_refl eq_refl))) as U. cbv zeta in U.
  change (hello Check) with (@nil event) in U. rewrite app_nil_r in U. rewrite U. clear U.
  destruct (w PlayerChecks h) as [codes|e].
  2:{ exists [Called PlayerChecks (Raise e)]. cbn [fst snd]. split; [reflexivity|].
      split; [reflexivity|]. split; [reflexivity|]. split.
      { intros l1 q r l2 E. pose proof (in_calls _ _ _ _ _ E) as I1. destruct I1 as [<-|[]]. exact I. }
      split. { exists []. eexists. split; [exact (plan_check o [])|]. split; [|discriminate]. eexists. reflexivity. }
      left. exists [], PlayerChecks, e. split; [reflexivity|]. split; [reflexivity|]. destruct e; reflexivity. }
  rewrite andb_false_r.
  destruct (check_each_history w false codes (h ++ [] ++ [Called PlayerChecks (Good codes)] ++ [])) as (evs & r & E & CK).
  rewrite E. destruct CK as [ps P|ps code rest e P].
  - destruct (fines_reads (ST:=ST) Check o k false ps) as (F1 & F2 & F3 & F4).
    exists ([Called PlayerChecks (Good codes)] ++ fines false ps). unfold ret. cbn [fst snd].
    split; [rewrite <- !app_assoc; reflexivity|]. split; [rewrite complaints_app, F3; reflexivity|].
    split; [rewrite said_app, flat_map_app, F2; reflexivity|]. split.
    { apply (asked_ready Check k h codes (fines false ps)). intros q IQ. rewrite F1 in IQ. apply in_map_iff in IQ. destruct IQ as (y & <- & IY). exists y, false. rewrite <- P. auto. }
    split; [|rewrite raises_app, F4; reflexivity].
    exists codes. eexists. split; [exact (plan_check o codes)|]. rewrite calls_app, F1, P. split; [exists []; rewrite app_nil_r; reflexivity|reflexivity].
  - destruct (check_fails Check false k h codes ps code rest e (or_intror (conj eq_refl eq_refl)) P) as (X1 & X2 & X3 & (cs & p & X4 & X5) & l1 & l2 & X6 & X7 & X8 & X9).
    assert (KL : skip_line Check k codes = []) by (unfold skip_line; destruct (o_quiet o); reflexivity).
    set (l := (hello Check ++ [Called PlayerChecks (Good codes)] ++ skip_line Check k codes) ++ fines false ps ++ broken false code e) in *.
    assert (EL : (h ++ [] ++ [Called PlayerChecks (Good codes)] ++ []) ++ fines false ps ++ broken false code e = h ++ l)
      by (unfold l; rewrite KL, <- !app_assoc; reflexivity).
    rewrite EL.
    destruct e as [t|t|t|t|t|t|t|t|t|t| |].
    5:{ exists l. unfold ret. cbn [fst snd]. split; [reflexivity|]. split; [exact X1|]. split; [rewrite <- X2, app_nil_r; reflexivity|]. split; [exact X3|].
        split; [exists cs, p; split; [exact X4|]; split; [exact X5|discriminate]|].
        exists l1, (CheckPlayer code false), (XCheck t), l2. auto. }
    all: exists l; cbn [fst snd]; split; [reflexivity|]; split; [exact X1|]; split; [rewrite <- X2, app_nil_r; reflexivity|]; split; [exact X3|];
      split; [exists cs, p; split; [exact X4|]; split; [exact X5|discriminate]|];
      left; destruct X9 as [->|(t' & T)]; [|discriminate T];
      exists l1; eexists; eexists; split; [exact X6|]; split; [exact X7|reflexivity].
Qed.

Lemma act_all c k h : In (Called InitRingmaster (Good (k : answer InitRingmaster))) h -> act_ok c k h (action w comp_vn traceback c k o h).
Proof.
  intros IN. destruct c; cbn [action].
  - exact (act_run k h IN).
  - eapply act_of_ends; [|apply ends_stop]. intros p ->. exists []. constructor.
  - eapply act_of_ends; [|apply (ends_with_status w decodes comp_vn brief traceback control o st0 Show)]; [|left; split; reflexivity|intros; reflexivity].
    intros p (v & st & ->). exists []. constructor.
  - eapply act_of_ends; [|apply (ends_with_status w decodes comp_vn brief traceback control o st0 Report)]; [|right; split; reflexivity|intros; reflexivity].
    intros p (v & st & ->). exists []. constructor.
  - eapply act_of_ends; [|apply ends_reset]. intros p ->. exists []. constructor.
  - exact (act_check k h).
  - eapply act_of_ends; [|apply ends_debug]. intros p ->. exists []. constructor.
Qed.
End Proofs.
