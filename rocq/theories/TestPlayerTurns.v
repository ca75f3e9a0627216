(** Proofs about the sessions of the test player (C85). *)
From Verif Require Import Base Bytes PyStr Dict CommonModel GtpModel GtpArgSpec GtpArgProofs TestPlayerModel TestPlayerSpec TestPlayerProofs.

Section Turns.
Variable tb : bytes.
Notation E := (test_engine tb).

(** The answer by the history is unique. *)
Lemma answers_genmove h args t : answers tb h (str "genmove") args t ->
  match fst (after h) with
  | Some (n, r) => if negb (n =? 0) && (n <=? snd (after h) + 1) then misbehaves tb r (str "pass") t else t = succeeds (str "pass")
  | None => t = succeeds (str "pass")
  end.
Proof.
  assert (K : forall c, answers tb h c args t -> c = str "genmove" ->
    match fst (after h) with
    | Some (n, r) => if negb (n =? 0) && (n <=? snd (after h) + 1) then misbehaves tb r (str "pass") t else t = succeeds (str "pass")
    | None => t = succeeds (str "pass")
    end); [|intros A; exact (K _ A eq_refl)].
  intros c A Ec. destruct A as [n r k args t W M Du B|n r k args W M Du|args W|args t B|a r n M| |a r N|c args I| | | | | | |c args N]; try discriminate Ec.
  - apply waiting_after in W. apply moves_after in M. rewrite W, M. apply due_b in Du. rewrite Du. exact B.
  - apply waiting_after in W. apply moves_after in M. rewrite W, M. destruct (due_dec n (k + 1)) as [[_ Y]|[Q _]]; [contradiction|]. rewrite Q. reflexivity.
  - apply waiting_after in W. rewrite W. reflexivity.
  - subst c. destruct I as [I|[I|[I|[I|[I|[]]]]]]; discriminate I.
  - subst c. elim N. unfold known. do 2 right; left; reflexivity.
Qed.

(** Every command has an answer. *)
Lemma answers_some h c args : exists t, answers tb h c args t.
Proof.
  destruct (in_dec (list_eq_dec ascii_dec) c known) as [I|N]; [|eexists; apply an_unknown; exact N].
  assert (MB : forall a text, exists t, misbehaves tb a text t).
  { intros a text. destruct a as [|a r]; [eexists; constructor|].
    destruct (list_eq_dec ascii_dec a (str "error")) as [->|N1]; [eexists; constructor|].
    destruct (list_eq_dec ascii_dec a (str "exit")) as [->|N2]; [eexists; constructor|].
    destruct (list_eq_dec ascii_dec a (str "internal")) as [->|N3]; [eexists; constructor|].
    destruct (list_eq_dec ascii_dec a (str "kill")) as [->|N4]; [eexists; constructor|].
    destruct (list_eq_dec ascii_dec a (str "protocol")) as [->|N5]; [eexists; constructor|].
    eexists. apply mb_unknown. intros [H|[H|[H|[H|[H|[]]]]]]; congruence. }
  unfold known in I. cbn [In] in I.
  destruct I as [<-|[<-|[<-|[<-|[<-|[<-|[<-|[<-|[<-|[<-|[<-|[<-|[<-|[]]]]]]]]]]]]]].
  - eexists. apply an_silent. right; left; reflexivity.
  - eexists. apply an_silent. do 2 right; left; reflexivity.
  - destruct (fst (after h)) as [[n r]|] eqn:F.
    + pose proof (waiting_exists h) as W. rewrite F in W. pose proof (moves_exists h) as M. destruct (due_dec n (snd (after h) + 1)) as [[_ Y]|[_ Y]].
      * destruct (MB r (str "pass")) as [t B]. exists t. exact (an_comes tb h n r _ args t W M Y B).
      * eexists. exact (an_not_yet tb h n r _ args W M Y).
    + pose proof (waiting_exists h) as W. rewrite F in W. eexists. exact (an_pass tb h args W).
  - destruct args as [|a r]; [eexists; apply an_unset|]. destruct (interpret_int_cases a) as [(n & _ & Y)|(N & _)]; [eexists; exact (an_set tb h a r n Y)|eexists; exact (an_bad tb h a r N)].
  - destruct (MB args []) as [t B]. exists t. exact (an_force tb h args t B).
  - destruct args as [|a r]; [eexists; apply an_not_known; discriminate|]. destruct (in_dec (list_eq_dec ascii_dec) a known) as [I|N]; [eexists; apply an_known; exact I|].
    eexists. apply an_not_known. intros a' r' H. injection H as <- <-. exact N.
  - eexists. apply an_silent. do 3 right; left; reflexivity.
  - eexists. apply an_list.
  - eexists. apply an_name.
  - eexists. apply an_silent. left; reflexivity.
  - eexists. apply an_version.
  - eexists. apply an_quit.
  - eexists. apply an_silent. do 4 right; left; reflexivity.
Qed.

Lemma clean_nil : clean_response [] = []. Proof. reflexivity. Qed.

Definition cleared (p : player) : player := mkPlayer (delayed_error_move p) (delayed_error_args p) (move_count p) [] (killed p).

Lemma turn_eq p c args h' : dget c (e_handlers E) = Some h' ->
  turn_of tb p c args =
  (let (p', r) := call_handler E h' (cleared p) args in
   (p', if killed p' then Died else match r with
        | GOk None => Answered (raw_output p') false [] false
        | GOk (Some t) => Answered (raw_output p') false (clean_response t) false
        | GError m => Answered (raw_output p') true (clean_response (or_default m (str "unspecified error"))) false
        | GFatal m => Answered (raw_output p') true (clean_response (or_default m (str "unspecified fatal error"))) true
        | GQuit m => Answered (raw_output p') false (clean_response m) true
        | GRaise m => Answered (raw_output p') true (clean_response (or_default (str "internal error" ++ char_lf :: m) (str "unspecified error"))) false
        end)).
Proof.
  intros H. unfold turn_of. fold (cleared p). unfold run_command, do_command. rewrite H.
  destruct (call_handler E h' (cleared p) args) as [p' r]. destruct r as [[t|]|m|m|m|m]; try reflexivity.
Qed.
Lemma or_default_cons (a : bytes) c s : or_default (a ++ c :: s) (str "unspecified error") = a ++ c :: s.
Proof. destruct a; reflexivity. Qed.

Lemma turn_simple p c args h' r : dget c (e_handlers E) = Some h' -> killed p = false ->
  call_handler E h' (cleared p) args = (cleared p, r) ->
  turn_of tb p c args = (cleared p, match r with
        | GOk None => Answered [] false [] false
        | GOk (Some t) => Answered [] false (clean_response t) false
        | GError m => Answered [] true (clean_response (or_default m (str "unspecified error"))) false
        | GFatal m => Answered [] true (clean_response (or_default m (str "unspecified fatal error"))) true
        | GQuit m => Answered [] false (clean_response m) true
        | GRaise m => Answered [] true (clean_response (or_default (str "internal error" ++ char_lf :: m) (str "unspecified error"))) false
        end).
Proof.
  intros H K C. rewrite (turn_eq p c args h' H), C. cbn [cleared killed raw_output]. rewrite K. reflexivity.
Qed.

(** What was shown about handle_force_error, as a turn. *)
Lemma force_turn p args text ok p' r :
  killed p = false -> raw_output p = [] -> clean_response text = text -> ok = GOk (if bytes_eqb text [] then None else Some text) ->
  handle_force_error tb p args = (p', r) ->
  mem p' = mem p /\
  misbehaves tb args text (if killed p' then Died else match gbind r (fun _ => ok) with
        | GOk None => Answered (raw_output p') false [] false
        | GOk (Some t) => Answered (raw_output p') false (clean_response t) false
        | GError m => Answered (raw_output p') true (clean_response (or_default m (str "unspecified error"))) false
        | GFatal m => Answered (raw_output p') true (clean_response (or_default m (str "unspecified fatal error"))) true
        | GQuit m => Answered (raw_output p') false (clean_response m) true
        | GRaise m => Answered (raw_output p') true (clean_response (or_default (str "internal error" ++ char_lf :: m) (str "unspecified error"))) false
        end) /\ (killed p' = false \/ r = GOk None).
Proof.
  intros K R C OK H. destruct (force_proof tb p args text K R) as (p0 & r0 & H0 & M & B & Q).
  rewrite H in H0. apply pair_equal_spec in H0. destruct H0 as [<- <-]. split; [exact M|].
  split.
  - destruct (killed p'); [exact B|]. destruct r as [x|m|m|m|m]; cbn [gbind].
    + subst ok. destruct (bytes_eqb_spec text []) as [->|N]; [exact B|]. rewrite C. exact B.
    + destruct Q as [Q1 Q2]. destruct m as [|c m]; [congruence|]. cbn [or_default]. rewrite Q1. exact B.
    + destruct Q as [Q1 Q2]. destruct m as [|c m]; [congruence|]. cbn [or_default]. rewrite Q1. exact B.
    + unfold handle_force_error in H. destruct (force_error tb p match args with [] => str "error" | a :: _ => a end) as [q z] eqn:F. unfold force_error in F.
      repeat match type of F with context [if ?b then _ else _] => destruct b end; apply pair_equal_spec in F; destruct F as [<- <-]; cbn [gbind] in H; apply pair_equal_spec in H; destruct H as [_ H]; discriminate.
    + rewrite or_default_cons. exact B.
  - unfold handle_force_error in H. destruct (force_error tb p match args with [] => str "error" | a :: _ => a end) as [q z] eqn:F. unfold force_error in F.
    repeat match type of F with context [if ?b then _ else _] => destruct b end; apply pair_equal_spec in F; destruct F as [<- <-]; cbn [gbind] in H; apply pair_equal_spec in H; destruct H as [<- <-]; cbn [killed]; auto.
Qed.

Theorem turn_proof h p c args : mem p = after h -> killed p = false ->
  exists p' t, turn_of tb p c args = (p', t) /\ answers tb h c args t /\ (forall t', answers tb h c args t' -> t' = t) /\
    mem p' = after (h ++ [(c, args)]) /\ (t <> Died -> killed p' = false).
Proof.
  intros A K. rewrite after_app, <- A.
  assert (CM : mem (cleared p) = mem p) by reflexivity.
  (* Simple commands *)
  assert (SIMPLE : forall h' r t, dget c (e_handlers E) = Some h' -> call_handler E h' (cleared p) args = (cleared p, r) ->
    match r with
        | GOk None => Answered [] false [] false
        | GOk (Some t) => Answered [] false (clean_response t) false
        | GError m => Answered [] true (clean_response (or_default m (str "unspecified error"))) false
        | GFatal m => Answered [] true (clean_response (or_default m (str "unspecified fatal error"))) true
        | GQuit m => Answered [] false (clean_response m) true
        | GRaise m => Answered [] true (clean_response (or_default (str "internal error" ++ char_lf :: m) (str "unspecified error"))) false
    end = t ->
    (forall t', answers tb h c args t' -> t' = t) -> step (mem p) (c, args) = mem p ->
    exists p' t, turn_of tb p c args = (p', t) /\ answers tb h c args t /\ (forall t', answers tb h c args t' -> t' = t) /\
      mem p' = step (mem p) (c, args) /\ (t <> Died -> killed p' = false)).
  { intros h' r t GET CALL RT UN ST. exists (cleared p), t. rewrite (turn_simple p c args h' r GET K CALL), RT.
    split; [reflexivity|]. destruct (answers_some h c args) as [t0 A0]. split; [rewrite <- (UN t0 A0); exact A0|].
    split; [exact UN|]. split; [rewrite ST; exact CM|]. intros _. exact K. }
  destruct (in_dec (list_eq_dec ascii_dec) c known) as [I|N].
  2:{ exists (cleared p), (fails (str "unknown command")).
      assert (GET : dget c (e_handlers E) = None) by (apply dget_None; rewrite keys_iff; exact N).
      split. { unfold turn_of. fold (cleared p). unfold run_command, do_command. rewrite GET. cbn [cleared killed]. rewrite K. reflexivity. }
      split; [apply an_unknown; exact N|].
      assert (NIN : forall x, In x known -> c <> x) by (intros x Ix ->; contradiction).
      split.
      - intros t' A'. destruct A' as [n r k args t W M Du B|n r k args W M Du|args W|args t B|a r n M| |a r N'|c args I'| | | | | | |c args N']; try reflexivity; exfalso; apply N; unfold known; cbn [In]; try (tauto).
        destruct I' as [<-|[<-|[<-|[<-|[<-|[]]]]]]; tauto.
      - split; [|intros _; exact K]. rewrite step_other; [exact CM| | |]; apply NIN; unfold known; cbn [In]; tauto. }
  unfold known in I. cbn [In] in I.
  Ltac others := first [discriminate | match goal with H : In _ [_; _; _; _; _] |- _ => destruct H as [H|[H|[H|[H|[H|[]]]]]]; discriminate H end | match goal with H : ~ In _ known |- _ => elim H; unfold known; cbn [In]; tauto end ].
  destruct I as [I|[I|[I|[I|[I|[I|[I|[I|[I|[I|[I|[I|[I|[]]]]]]]]]]]]]].
  all: symmetry in I.
  - (* boardsize *) eapply (SIMPLE _ (GOk None) (succeeds [])); [rewrite I; exact (get_boardsize tb)|reflexivity|reflexivity| |rewrite I; apply step_other; discriminate].
    clear SIMPLE CM. intros t' A'. revert I. destruct A'; intros I; first [reflexivity|discriminate I|subst; others].
  - (* clear_board *) eapply (SIMPLE _ (GOk None) (succeeds [])); [rewrite I; exact (get_clear_board tb)|reflexivity|reflexivity| |rewrite I; apply step_other; discriminate].
    clear SIMPLE CM. intros t' A'. revert I. destruct A'; intros I; first [reflexivity|discriminate I|subst; others].
  - (* genmove *) subst c. rewrite (turn_eq p _ args _ (get_genmove tb)). cbn [call_handler].
    assert (UNIQ : forall t' t'', answers tb h (str "genmove") args t' -> answers tb h (str "genmove") args t'' -> t'' = t').
    { intros t' t'' A1 A2. apply answers_genmove in A1, A2. destruct (fst (after h)) as [[n r]|]; [|congruence].
      destruct (negb (n =? 0) && (n <=? snd (after h) + 1)); [exact (misbehaves_fun tb _ _ _ _ A1 A2)|congruence]. }
    assert (FINISH : forall p' t, answers tb h (str "genmove") args t -> mem p' = step (mem p) (str "genmove", args) -> (t <> Died -> killed p' = false) ->
      exists p'0 t0, (p', t) = (p'0, t0) /\ answers tb h (str "genmove") args t0 /\ (forall t', answers tb h (str "genmove") args t' -> t' = t0) /\
        mem p'0 = step (mem p) (str "genmove", args) /\ (t0 <> Died -> killed p'0 = false)).
    { intros p' t A1 M1 K1. exists p', t. split; [reflexivity|]. split; [exact A1|]. split; [intros t' A2; exact (UNIQ t t' A1 A2)|]. split; assumption. }
    pose proof (waiting_exists h) as W. pose proof (moves_exists h) as M. rewrite <- A in W, M. cbn [mem fst snd] in W, M.
    unfold handle_genmove. cbn [counted cleared delayed_error_move move_count delayed_error_args raw_output killed].
    unfold mem at 2 in FINISH. rewrite step_genmove in FINISH. unfold slot in W, FINISH.
    destruct (delayed_error_move p) as [n|] eqn:DM.
    + destruct (due_dec n (move_count p + 1)) as [[Eq Y]|[Eq Y]]; rewrite Eq in FINISH |- *.
      * destruct (handle_force_error tb (mkPlayer None (delayed_error_args p) (move_count p + 1) [] (killed p)) (delayed_error_args p)) as [p' r] eqn:F.
        destruct (force_turn (mkPlayer None (delayed_error_args p) (move_count p + 1) [] (killed p)) (delayed_error_args p) (str "pass") (GOk (Some (str "pass"))) p' r K eq_refl eq_refl eq_refl F) as (M1 & B & KK).
        apply FINISH; [exact (an_comes tb h n _ _ args _ W M Y B)| |].
        { rewrite M1. reflexivity. }
        { intros ND. destruct (killed p'); [congruence|reflexivity]. }
      * cbn [counted cleared killed raw_output]. rewrite K. apply FINISH; [exact (an_not_yet tb h n _ _ args W M Y)| |intros _; first [exact K|reflexivity]].
        unfold mem, slot, counted, cleared. cbn [delayed_error_move delayed_error_args move_count]. rewrite ?DM. reflexivity.
    + cbn [counted cleared killed raw_output]. rewrite K. apply FINISH; [exact (an_pass tb h args W)| |intros _; first [exact K|reflexivity]].
      unfold mem, slot, counted, cleared. cbn [delayed_error_move delayed_error_args move_count]. rewrite ?DM. reflexivity.
  - (* delayed *) subst c. rewrite (turn_eq p _ args _ (get_delayed tb)). cbn [call_handler].
    unfold handle_delayed_error. change (mem p) with (slot p, move_count p) in A, CM, SIMPLE |- *. clear SIMPLE CM A.
    setoid_rewrite step_set. destruct args as [|a r].
    + exists (cleared p), (fails (str "invalid arguments")). cbn [cleared killed]. rewrite K. split; [reflexivity|]. split; [apply an_unset|].
      split; [|split; [reflexivity|intros _; first [exact K|reflexivity]]].
      assert (UN : forall c l t', answers tb h c l t' -> c = str "gomill-delayed_error" -> l = [] -> t' = fails (str "invalid arguments")).
      { intros c l t' A' Ec El. destruct A'; first [reflexivity|discriminate Ec|discriminate El|subst; others]. }
      intros t' A'. exact (UN _ _ _ A' eq_refl eq_refl).
    + destruct (interpret_int_cases a) as [(n & Eq & Y)|(NN & Eq)]; rewrite Eq.
      * eexists. exists (succeeds []). cbn [cleared killed raw_output]. rewrite K. split; [reflexivity|]. split; [exact (an_set tb h a r n Y)|].
        split; [|split; [reflexivity|intros _; first [exact K|reflexivity]]].
        assert (UN : forall c l t', answers tb h c l t' -> c = str "gomill-delayed_error" -> l = a :: r -> t' = succeeds []).
        { intros c l t' A' Ec El. destruct A' as [n0 r0 k args t W M Du B|n0 r0 k args W M Du|args W|args t B|a0 r0 n0 M| |a0 r0 N'|c args I'| | | | | | |c args N'];
            first [reflexivity|discriminate Ec|discriminate El|subst; others|idtac].
          replace a0 with a in N' by congruence. elim (N' n Y). }
        intros t' A'. exact (UN _ _ _ A' eq_refl eq_refl).
      * exists (cleared p), (fails (clean_response (str "invalid int: '" ++ a ++ str "'"))). cbn [cleared killed raw_output]. rewrite K. split; [reflexivity|].
        split; [exact (an_bad tb h a r NN)|]. split; [|split; [reflexivity|intros _; first [exact K|reflexivity]]].
        assert (UN : forall c l t', answers tb h c l t' -> c = str "gomill-delayed_error" -> l = a :: r -> t' = fails (clean_response (str "invalid int: '" ++ a ++ str "'"))).
        { intros c l t' A' Ec El. destruct A' as [n0 r0 k args t W M Du B|n0 r0 k args W M Du|args W|args t B|a0 r0 n0 M| |a0 r0 N'|c args I'| | | | | | |c args N'];
            first [discriminate Ec|discriminate El|subst; others|idtac].
          - replace a0 with a in M by congruence. elim (NN n0 M).
          - replace a0 with a by congruence. reflexivity. }
        intros t' A'. exact (UN _ _ _ A' eq_refl eq_refl).
  - (* force *) subst c. rewrite (turn_eq p _ args _ (get_force tb)). cbn [call_handler].
    destruct (handle_force_error tb (cleared p) args) as [p' r] eqn:F.
    destruct (force_turn (cleared p) args [] (GOk None) p' r K eq_refl eq_refl eq_refl F) as (M1 & B & KK).
    assert (EQ : gbind r (fun _ : option bytes => GOk (A:=option bytes) None) = r).
    { destruct (force_proof tb (cleared p) args [] K eq_refl) as (p0 & r0 & H0 & _ & _ & Q). rewrite F in H0. apply pair_equal_spec in H0. destruct H0 as [_ <-].
      destruct r; cbn [gbind]; congruence. }
    rewrite EQ in B. eexists. eexists. split; [reflexivity|]. split; [apply an_force; exact B|].
    split; [|split; [rewrite M1; symmetry; apply step_other; discriminate|intros ND; destruct (killed p'); [congruence|reflexivity]]].
    assert (UN : forall c t', answers tb h c args t' -> c = str "gomill-force_error" -> misbehaves tb args [] t').
    { intros c t' A' Ec. destruct A'; first [assumption|discriminate Ec|subst; others]. }
    intros t' A'. exact (misbehaves_fun tb _ _ _ _ B (UN _ _ A' eq_refl)).
  - (* known_command *) 
    eapply (SIMPLE _ (GOk (Some (format_gtp_boolean match args with [] => false | a :: _ => dmem a (e_handlers E) end)))
             (succeeds (format_gtp_boolean match args with [] => false | a :: _ => dmem a (e_handlers E) end))); [rewrite I; exact (get_known tb)|reflexivity| | |rewrite I; apply step_other; discriminate].
    { cbv iota. unfold succeeds. destruct (match args with [] => false | a :: _ => dmem a (e_handlers E) end); reflexivity. }
    clear SIMPLE CM. intros t' A'. revert I. destruct A' as [n0 r0 k args t W M Du B|n0 r0 k args W M Du|args W|args t B|a0 r0 n0 M| |a0 r0 N'|c args I'| | |a0 r0 I0|args N0| | |c args N']; intros I; first [discriminate I|subst; others|idtac].
    + apply (known_mem tb) in I0. rewrite I0. reflexivity.
    + destruct args as [|a0 r0]; [reflexivity|]. pose proof (N0 a0 r0 eq_refl) as N1. rewrite <- (known_mem tb) in N1.
      destruct (dmem a0 (e_handlers E)); [congruence|reflexivity].
  - (* komi *) eapply (SIMPLE _ (GOk None) (succeeds [])); [rewrite I; exact (get_komi tb)|reflexivity|reflexivity| |rewrite I; apply step_other; discriminate].
    clear SIMPLE CM. intros t' A'. revert I. destruct A'; intros I; first [reflexivity|discriminate I|subst; others].
  - (* list_commands *) eapply (SIMPLE _ (GOk (Some (join [char_lf] (list_commands E)))) (succeeds (join [char_lf] known))); [rewrite I; exact (get_list tb)|reflexivity|rewrite (list_is tb); reflexivity| |rewrite I; apply step_other; discriminate].
    clear SIMPLE CM. intros t' A'. revert I. destruct A'; intros I; first [reflexivity|discriminate I|subst; others].
  - (* name *) eapply (SIMPLE _ (GOk (Some (str "GTP test player"))) (succeeds (str "GTP test player"))); [rewrite I; exact (get_name tb)|reflexivity|reflexivity| |rewrite I; apply step_other; discriminate].
    clear SIMPLE CM. intros t' A'. revert I. destruct A'; intros I; first [reflexivity|discriminate I|subst; others].
  - (* play *) subst c. rewrite (turn_eq p _ args _ (get_play tb)). cbn [call_handler handle_play]. exists (counted (cleared p)), (succeeds []).
    cbn [counted cleared killed raw_output]. rewrite K. split; [reflexivity|]. split; [apply an_silent; left; reflexivity|].
    split; [|split; [reflexivity|intros _; first [exact K|reflexivity]]].
    assert (UN : forall c t', answers tb h c args t' -> c = str "play" -> t' = succeeds []).
    { intros c t' A' Ec. destruct A'; first [reflexivity|discriminate Ec|subst; others]. }
    intros t' A'. exact (UN _ _ A' eq_refl).
  - (* protocol_version *) eapply (SIMPLE _ (GOk (Some (str "2"))) (succeeds (str "2"))); [rewrite I; exact (get_protocol tb)|reflexivity|reflexivity| |rewrite I; apply step_other; discriminate].
    clear SIMPLE CM. intros t' A'. revert I. destruct A'; intros I; first [reflexivity|discriminate I|subst; others].
  - (* quit *) eapply (SIMPLE _ (GQuit []) (Answered [] false [] true)); [rewrite I; exact (get_quit tb)|reflexivity|reflexivity| |rewrite I; apply step_other; discriminate].
    clear SIMPLE CM. intros t' A'. revert I. destruct A'; intros I; first [reflexivity|discriminate I|subst; others].
  - (* version *) eapply (SIMPLE _ (GOk (Some [])) (succeeds [])); [rewrite I; exact (get_version tb)|reflexivity|reflexivity| |rewrite I; apply step_other; discriminate].
    clear SIMPLE CM. intros t' A'. revert I. destruct A'; intros I; first [reflexivity|discriminate I|subst; others].
Qed.

Theorem conversation_proof cmds : forall h p ts, mem p = after h -> killed p = false ->
  (conversation tb h cmds ts <-> serve_from tb p cmds = ts).
Proof.
  induction cmds as [|[c args] rest IH]; intros h p ts A K.
  - cbn [serve_from]. split; [intros C; inversion C; reflexivity|intros <-; constructor].
  - cbn [serve_from]. destruct (turn_proof h p c args A K) as (p' & t & T & AN & UN & A' & K'). rewrite T.
    assert (GO : session_goes_on t -> (match t with Answered _ _ _ false => t :: serve_from tb p' rest | _ => [t] end) = t :: serve_from tb p' rest).
    { intros (b & e & x & ->). reflexivity. }
    assert (STOP : ~ session_goes_on t -> (match t with Answered _ _ _ false => t :: serve_from tb p' rest | _ => [t] end) = [t]).
    { intros N. destruct t as [b e x [|]|]; try reflexivity. elim N. exists b, e, x. reflexivity. }
    split.
    + intros C. inversion C as [|h0 c0 args0 rest0 t0 ts0 AN0 G0 C0|h0 c0 args0 rest0 t0 AN0 G0]; subst.
      * pose proof (UN _ AN0) as ->. rewrite (GO G0). f_equal. apply (IH (h ++ [(c, args)])); [exact A'| |exact C0].
        apply K'. destruct G0 as (b & e & x & ->). discriminate.
      * pose proof (UN _ AN0) as ->. exact (STOP G0).
    + intros <-. assert (DEC : session_goes_on t \/ ~ session_goes_on t).
      { destruct t as [b e x [|]|]; [right; intros (b' & e' & x' & Q); congruence|left; exists b, e, x; reflexivity|right; intros (b' & e' & x' & Q); congruence]. }
      destruct DEC as [G0|G0].
      * rewrite (GO G0). apply cv_more; [exact AN|exact G0|]. apply (IH (h ++ [(c, args)]) p'); [exact A'| |reflexivity].
        apply K'. destruct G0 as (b & e & x & ->). discriminate.
      * rewrite (STOP G0). apply cv_last; assumption.
Qed.
End Turns.
