(** C85: the engine for testing the error handling of controllers (gomill_examples/gtp_test_player). *)
From Verif Require Import Base Bytes PyStr Dict CommonModel GtpModel GtpArgSpec GtpArgProofs TestPlayerModel TestPlayerSpec TestPlayerProofs TestPlayerTurns.
From Verif Require PipeModel PipeSpec PipeProofs PipeProps.

(** Whatever the commands, the session is as the history says. *)
Theorem C85_session tb cmds ts : conversation tb [] cmds ts <-> serve tb cmds = ts.
Proof. apply (conversation_proof tb cmds [] new_player ts); reflexivity. Qed.
Print Assumptions C85_session.

(** By the history, there's always exactly one answer, at most one error waiting. *)
Theorem C85_history tb h c args :
  (exists k, moves h k /\ forall k', moves h k' -> k' = k) /\ (exists d, waiting h d /\ forall d', waiting h d' -> d' = d) /\
  (exists t, answers tb h c args t /\ forall t', answers tb h c args t' -> t' = t).
Proof.
  split; [|split].
  - exists (snd (after h)). split; [apply moves_exists|]. intros k' M. symmetry. exact (moves_after h k' M).
  - exists (fst (after h)). split; [apply waiting_exists|]. intros d' W. symmetry. exact (waiting_after h d' W).
  - destruct (after h) as [d k] eqn:A.
    assert (exists p, mem p = after h /\ killed p = false) as (p & M & K).
    { rewrite A. destruct d as [[n r]|]; [exists (mkPlayer (Some n) r k [] false)|exists (mkPlayer None [] k [] false)]; split; reflexivity. }
    destruct (turn_proof tb h p c args M K) as (p' & t & _ & AN & UN & _). exists t. auto.
Qed.
Print Assumptions C85_history.

(** An error set for a positive move number which isn't set again comes with the first genmove of that
    number or later, and only once. *)
Theorem C85_delayed h a r n l : move_number a n ->
  (forall c, In c l -> fst c <> str "gomill-delayed_error") ->
  let h1 := h ++ [(str "gomill-delayed_error", a :: r)] ++ l in
  (waiting h1 (Some (n, r)) <-> forall before args later k, l = before ++ (str "genmove", args) :: later ->
     moves (h ++ [(str "gomill-delayed_error", a :: r)] ++ before) k -> ~ due n (k + 1)) /\
  (waiting h1 (Some (n, r)) \/ waiting h1 None).
Proof.
  intros MN. cbv zeta. induction l as [|[c args] l IH] using rev_ind; intros NS.
  - rewrite app_nil_r. split; [split|].
    + intros _ before args later k H. destruct before; discriminate H.
    + intros _. apply (wt_set h (fst (after h)) a n r); [apply waiting_exists|exact MN].
    + left. apply (wt_set h (fst (after h)) a n r); [apply waiting_exists|exact MN].
  - assert (NS' : forall c, In c l -> fst c <> str "gomill-delayed_error") by (intros x I; apply NS; apply in_or_app; left; exact I).
    specialize (IH NS'). destruct IH as [IH IHD].
    replace (h ++ [(str "gomill-delayed_error", a :: r)] ++ l ++ [(c, args)]) with ((h ++ [(str "gomill-delayed_error", a :: r)] ++ l) ++ [(c, args)]) by (rewrite <- !app_assoc; reflexivity).
    set (h1 := h ++ [(str "gomill-delayed_error", a :: r)] ++ l) in *.
    assert (CD : c <> str "gomill-delayed_error") by (apply (NS (c, args)); apply in_or_app; right; left; reflexivity).
    assert (FUN : forall x y hh, waiting hh x -> waiting hh y -> x = y) by (intros x y hh W1 W2; apply waiting_after in W1, W2; congruence).
    pose proof (moves_exists h1) as M. set (k := snd (after h1)) in *.
    destruct (list_eq_dec ascii_dec c (str "genmove")) as [->|CG].
    + destruct IHD as [W|W].
      * destruct (due_dec n (k + 1)) as [[_ Y]|[_ Y]].
        -- pose proof (wt_comes h1 n r args k W M Y) as W2. split; [|right; exact W2]. split.
           ++ intros W3. pose proof (FUN _ _ _ W2 W3). discriminate.
           ++ intros H. elim (H l args [] k eq_refl M Y).
        -- pose proof (wt_not_yet h1 n r args k W M Y) as W2. split; [|left; exact W2]. split; [|intros _; exact W2].
           intros _ before args' later k' H M'. destruct later as [|x later _] using rev_ind.
           ++ apply app_inj_tail in H. destruct H as [<- _]. replace k' with k; [exact Y|]. apply moves_after in M, M'. unfold h1 in M. congruence.
           ++ rewrite app_comm_cons, app_assoc in H. apply app_inj_tail in H. destruct H as [H _]. exact (proj1 IH W before args' later k' H M').
      * pose proof (wt_nothing h1 args W) as W2. split; [|right; exact W2]. split.
        -- intros W3. pose proof (FUN _ _ _ W2 W3). discriminate.
        -- intros H. exfalso. assert (W3 : waiting h1 (Some (n, r))).
           { apply IH. intros before args' later k' -> M'. apply (H before args' (later ++ [(str "genmove", args)]) k'); [rewrite <- app_assoc; reflexivity|exact M']. }
           pose proof (FUN _ _ _ W W3). discriminate.
    + assert (KEEP : forall d, waiting h1 d -> waiting (h1 ++ [(c, args)]) d) by (intros d W; apply wt_other; assumption).
      split; [|destruct IHD as [W|W]; [left|right]; exact (KEEP _ W)].
      assert (EQ : waiting (h1 ++ [(c, args)]) (Some (n, r)) <-> waiting h1 (Some (n, r))).
      { split; [|apply KEEP]. intros W3. destruct IHD as [W|W]; [exact W|]. pose proof (FUN _ _ _ (KEEP _ W) W3). discriminate. }
      rewrite EQ, IH. split; intros H before args' later k' E M'.
      * destruct later as [|x later _] using rev_ind.
        -- apply app_inj_tail in E. destruct E as [_ E]. congruence.
        -- rewrite app_comm_cons, app_assoc in E. apply app_inj_tail in E. destruct E as [E _]. exact (H before args' later k' E M').
      * subst l. apply (H before args' (later ++ [(c, args)]) k'); [rewrite <- app_assoc; reflexivity|exact M'].
Qed.
Print Assumptions C85_delayed.

(** What a controller makes of the ill-formed response: a protocol error that quotes it. The real response
    is taken with it, so that the next response is read right. *)
Theorem C85_ill_formed_seen text e rest : text = [] \/ text = str "pass" ->
  PipeModel.get_response e (PipeModel.mkChan false (written (Answered (str "!! forced ill-formed GTP response" ++ [char_lf]) false text false) ++ rest)) =
  (PipeModel.mkChan false rest,
   PipeModel.Failed (PipeModel.Protocol (str "no success/failure indication from engine: first line is `!! forced ill-formed GTP response`"))).
Proof.
  assert (CL : forall s, (forallb (fun c => (32 <=? ord c) && negb (ord c =? 127) || (ord c =? 9) || (ord c =? 10)) s = true) -> PipeSpec.cleaned s s).
  { induction s as [|c s IH]; [constructor|]. cbn [forallb]. intros H. apply andb_true_iff in H. destruct H as [H1 H2]. apply PipeSpec.cl_keep; [|exact (IH H2)].
    intros I. unfold PipeSpec.ignored in I. destruct (Z.leb_spec 32 (ord c)); destruct (Z.eqb_spec (ord c) 127); destruct (Z.eqb_spec (ord c) 9); destruct (Z.eqb_spec (ord c) 10); cbn in H1; try discriminate; lia. }
  assert (LN : forall t, existsb (fun c => ceqb c char_lf) t = false -> PipeSpec.line (t ++ [char_lf])).
  { intros t H. exists t. split; [reflexivity|]. intros I. rewrite <- not_true_iff_false in H. apply H. apply existsb_exists. exists char_lf. split; [exact I|reflexivity]. }
  assert (NE : forall c r, PipeSpec.cleaned (c :: r) (c :: r) -> r <> [] -> ~ PipeSpec.empty (c :: r)).
  { intros c r C N Em. unfold PipeSpec.empty in Em. inversion C as [|c0 s t I C0|c0 s t I C0 Q1 Q2]; subst.
    - inversion Em as [|c0 s t I' C1|c0 s t I' C1 Q1 Q2]; subst; [|contradiction].
      clear -C0. exfalso. assert (L : forall s t, PipeSpec.cleaned s t -> (List.length t <= List.length s)%nat) by (induction 1; cbn [List.length]; lia).
      apply L in C0. cbn [List.length] in C0. lia.
    - inversion Em as [|c0 s t I' C1|c0 s t I' C1 Q1 Q2]; subst; [contradiction|].
      assert (F : forall s u, PipeSpec.cleaned s u -> PipeSpec.cleaned s s -> u = s).
      { clear. induction 1 as [|c s t I C IH|c s t I C IH]; intros X; [reflexivity| |].
        - inversion X as [|? ? ? I' X'|? ? ? I' X']; subst; [|contradiction].
          exfalso. assert (L : forall s t, PipeSpec.cleaned s t -> (List.length t <= List.length s)%nat) by (induction 1; cbn [List.length]; lia).
          apply L in X'. cbn [List.length] in X'. lia.
        - inversion X as [|? ? ? I' X'|? ? ? I' X']; subst; [contradiction|]. f_equal. apply IH. exact X'. }
      apply N. symmetry. exact (F r [] C1 C0). }
  intros T. apply PipeProps.C82_response.
  set (l1 := str "!! forced ill-formed GTP response" ++ [char_lf]).
  set (l2 := str "=" ++ (match text with [] => [] | _ => [char_sp] end) ++ text ++ [char_lf]).
  replace (written (Answered l1 false text false) ++ rest) with (List.concat [] ++ List.concat [l1; l2] ++ [char_lf] ++ rest)
    by (unfold l2, written; cbn [List.concat app]; rewrite ?app_nil_r, <- !app_assoc; reflexivity).
  assert (C1 : PipeSpec.cleaned l1 l1) by (apply CL; reflexivity).
  assert (C2 : PipeSpec.cleaned l2 l2) by (apply CL; destruct T as [->| ->]; reflexivity).
  apply PipeSpec.an_response with (ts := [l1; l2]).
  - constructor.
  - constructor.
  - split; [|split].
    + constructor; [apply LN; reflexivity|]. constructor; [|constructor]. unfold l2. rewrite !app_assoc. apply LN. destruct T as [->| ->]; reflexivity.
    + constructor; [|constructor; [|constructor]].
      * apply NE; [exact C1|discriminate].
      * apply NE; [exact C2|]. destruct T as [->| ->]; discriminate.
    + intros B. inversion B as [|c s H]; subst. destruct H as [[H|H]|[H|[H|H]]]; try discriminate H; vm_compute in H; intuition discriminate.
  - exists []. split; [reflexivity|intros []].
  - apply PipeSpec.cl_keep; [|constructor]. intros [H|H]; vm_compute in H; intuition discriminate.
  - constructor; [exact C1|constructor; [exact C2|constructor]].
  - apply (PipeSpec.me_neither "!"%char (tl l1) [l2] (str "!! forced ill-formed GTP response") [char_lf]); try discriminate; [reflexivity|constructor; [reflexivity|constructor]|].
    intros s d H. replace (str "!! forced ill-formed GTP response") with (str "!! forced ill-formed GTP respons" ++ [ "e"%char ]) in H by reflexivity.
    apply app_inj_tail in H. destruct H as [_ <-]. reflexivity.
Qed.
Print Assumptions C85_ill_formed_seen.

(** After the process has killed itself, a controller finds that the engine has gone away. *)
Theorem C85_killed_seen ch : PipeModel.c_unread ch = written Died ->
  snd (PipeModel.get_response PipeModel.Eof ch) = PipeModel.Failed (PipeModel.Closed (str "engine has closed the response channel")).
Proof.
  destruct ch as [b s]. cbn [written PipeModel.c_unread]. intros ->. destruct b; reflexivity.
Qed.
Print Assumptions C85_killed_seen.

Definition s1 (x : string) : command := (str x, []).
(** The error comes at the first genmove from move 3 on, once; clearing the board doesn't start the count again; a move
    number of 0 never comes; a negative one at once; an unreadable one leaves the error set before; kill ends the session. *)
Example C85_demo :
  serve (str "tb") [(str "gomill-delayed_error", [str "3"; str "exit1"]); s1 "genmove"; s1 "clear_board"; s1 "play"; (str "gomill-delayed_error", [str "x"]); s1 "genmove"; s1 "genmove"]
    = [succeeds []; succeeds (str "pass"); succeeds []; succeeds []; fails (str "invalid int: 'x'"); fails (str "unknown force_error argument"); succeeds (str "pass")] /\
  serve (str "tb") [(str "gomill-delayed_error", [str "0"; str "kill"]); s1 "genmove"; (str "gomill-delayed_error", [str "-5"; str "protocol"]); s1 "genmove"; (str "gomill-force_error", [str "kill"]); s1 "genmove"]
    = [succeeds []; succeeds (str "pass"); succeeds []; Answered (str "!! forced ill-formed GTP response" ++ [char_lf]) false (str "pass") false; Died] /\
  serve (str "tb") [(str "gomill-force_error", [str "internal"]); (str "known_command", [str "genmove"]); (str "known_command", [str "undo"]); s1 "undo"; (str "gomill-force_error", [str "exit"]); s1 "name"]
    = [fails (str "internal error" ++ char_lf :: str "tb"); succeeds (str "true"); succeeds (str "false"); fails (str "unknown command"); Answered [] true (str "forced GTP error; exiting") true].
Proof. vm_compute. repeat split. Qed.
Example C85_delayed_demo : move_number (str " 99999999999") 2147483647 /\ move_number (str "-3") (-1) /\ due (-1) 1 /\ ~ due 0 5 /\ ~ due 2147483647 1000.
Proof.
  split; [apply interpret_int_number; vm_compute; reflexivity|]. split; [apply interpret_int_number; vm_compute; reflexivity|].
  unfold due. split; [lia|]. split; lia.
Qed.
