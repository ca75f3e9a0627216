(** C82: what a controller makes of any program at the other end of its pipes. *)
From Verif Require Import Base Bytes PyStr GtpModel PipeModel PipeSpec PipeProofs.
Open Scope Z_scope.

(** Whatever bytes the program has sent, and whatever comes after them: the response is the one that
    [answers] (PipeSpec.v) describes, there is always exactly one, and the next response is read from
    where it ends. *)
Theorem C82_response e s o rest :
  get_response e (mkChan false s) = (mkChan false rest, o) <-> answers e s o rest.
Proof. exact (get_later e s o rest). Qed.
Print Assumptions C82_response.
Theorem C82_total e s : exists o rest, answers e s o rest /\ forall o' rest', answers e s o' rest' -> o' = o /\ rest' = rest.
Proof.
  destruct (answers_total e s) as (o & rest & A). exists o, rest. split; [exact A|]. intros o' rest' A'.
  apply get_later in A, A'. rewrite A in A'. apply pair_equal_spec in A'. destruct A' as [X Y]. injection X as ->. auto.
Qed.
Print Assumptions C82_total.

(** The first response: as the others, but if the first byte can't begin one, the program is found out
    at once, without waiting for the rest of the line. *)
Theorem C82_first_response e s :
  (s = [] -> get_response e (new_channel s) = get_response e (mkChan false s)) /\
  (forall c r, s = c :: r -> plausible c -> get_response e (new_channel s) = get_response e (mkChan false s)) /\
  (forall c r, s = c :: r -> ~ plausible c ->
     get_response e (new_channel s) =
       (mkChan false r, Failed (Protocol (if ord c =? 1 then str "engine appears to be speaking GMP, not GTP!"
                                          else str "engine isn't speaking GTP: first byte is " ++ repr_char c)))).
Proof.
  unfold new_channel. split; [|split].
  - intros ->. destruct e; reflexivity.
  - intros c r -> P. apply get_first. exact P.
  - intros c r -> N. unfold get_response. cbn [c_first c_unread]. unfold look_at_first_byte. cbn [get_response_byte].
    destruct (ceqb_spec c (chr 1)) as [->|NE].
    + reflexivity.
    + assert (ord c =? 1 = false) as ->. { apply Z.eqb_neq. intros X. apply NE. apply ord_inj. exact X. }
      destruct (existsb _ _) eqn:E; [exfalso; apply N; apply plausible_spec; exact E|]. reflexivity.
Qed.
Print Assumptions C82_first_response.

(** The controller waits for ever only if the program goes on without ending its output and without
    completing a response; it never waits for a program that has closed its output or whose pipe is
    broken. *)
Theorem C82_waits e ch ch' : get_response e ch = (ch', Failed Waits) ->
  e = Silence /\
  (exists bs ls tail, c_unread ch = List.concat bs ++ List.concat ls ++ tail /\ Forall line bs /\ Forall blank bs /\
     no_newline tail /\ (begun ls \/ ls = [])).
Proof.
  assert (forall s ch', get_response e (mkChan false s) = (ch', Failed Waits) ->
    e = Silence /\ (exists bs ls tail, s = List.concat bs ++ List.concat ls ++ tail /\ Forall line bs /\ Forall blank bs /\ no_newline tail /\ (begun ls \/ ls = []))) as LATER.
  { intros s c1 H. destruct (answers_total e s) as (o & rest & A). pose proof (proj2 (get_later e s o rest) A) as G.
    rewrite G in H. apply pair_equal_spec in H. destruct H as [_ ->].
    inversion A as [bs ls last r ts o Lb Bb BG LL EL C M|bs ls tail ts o EE Lb Bb NT HB C M|s0 EE B|bs ls tail f0 Lb Bb NT HB X]; subst.
    - inversion M.
    - inversion M.
    - split; [destruct X as [[-> _]|(t & _ & X)]; [reflexivity|discriminate]|]. exists bs, ls, tail. repeat split; assumption. }
  destruct ch as [[|] s]; [|apply LATER]. cbn [c_unread].
  destruct (C82_first_response e s) as (F0 & F1 & F2). unfold new_channel in *. destruct s as [|c r].
  - rewrite (F0 eq_refl). apply LATER.
  - destruct (existsb (ceqb c) [char_sp; char_tab; char_cr; char_lf; "#"%char; "="%char; "?"%char]) eqn:P.
    + rewrite (F1 c r eq_refl (proj1 (plausible_spec c) P)). apply LATER.
    + rewrite (F2 c r eq_refl); [discriminate|]. intros X. apply plausible_spec in X. congruence.
Qed.
Print Assumptions C82_waits.

(** Progress: a response uses up bytes; when the output has ended and all of it has been read, the
    channel is closed, whenever it's asked again. *)
Theorem C82_progress e s b t rest : answers e s (Got b t) rest -> (List.length rest < List.length s)%nat.
Proof.
  intros A. inversion A as [bs ls last r ts o Lb Bb BG LL EL C M|bs ls tail ts o EE Lb Bb NT HB C M| |]; subst.
  - rewrite !app_length. pose proof (line_nonempty last LL). lia.
  - rewrite !app_length. cbn [List.length]. destruct HB as [BG|[-> NB]].
    + destruct ls as [|l ls]; [destruct BG as (_ & _ & [])|]. destruct BG as (L & _). inversion L as [|? ? L1 L2]; subst.
      pose proof (line_nonempty l L1). cbn [List.concat]. rewrite !app_length. lia.
    + destruct tail as [|c tail]; [exfalso; apply NB; constructor|]. cbn [List.length List.concat]. lia.
Qed.
Print Assumptions C82_progress.
Theorem C82_closed n : responses n Eof (mkChan false []) = repeat (Failed (Closed (str "engine has closed the response channel"))) n.
Proof. induction n as [|n IH]; [reflexivity|]. cbn [responses repeat]. rewrite <- IH. reflexivity. Qed.
Print Assumptions C82_closed.

(** The text of a response is free of control characters (but for newlines) and of white space at
    its end. *)
Lemma got_text e s b t rest : answers e s (Got b t) rest ->
  Forall (fun c => (32 <= ord c /\ ord c <> 127) \/ c = char_lf) t /\ ends_in_ink t.
Proof.
  intros A.
  assert (forall ls ts, Forall2 cleaned ls ts -> Forall (Forall (fun c => ~ ignored c)) ts) as CL.
  { induction 1 as [|l u ls ts C F IH]; constructor; [|exact IH]. clear - C. induction C; [constructor|assumption|constructor; assumption]. }
  assert (forall ls ts, Forall2 cleaned ls ts -> means ts (Got b t) -> Forall (fun c => (32 <= ord c /\ ord c <> 127) \/ c = char_lf) t /\ ends_in_ink t) as GO.
  { intros ls ts C M. apply CL in C. inversion M as [c r more lead text trail shown HC E B N W K U|]; subst.
    inversion C as [|? ? C1 C2]; subst. inversion C1 as [|? ? _ C3]; subst.
    assert (Forall (fun c => ~ ignored c) (lead ++ text ++ trail)) as FA.
    { rewrite <- E. apply Forall_app. split; [exact C3|]. clear - C2. induction C2 as [|l ls F1 F2 IH]; [constructor|]. cbn [List.concat]. apply Forall_app. split; assumption. }
    apply Forall_app in FA. destruct FA as [_ FA]. apply Forall_app in FA. destruct FA as [FT _].
    split.
    - clear - FT U. revert t U. induction FT as [|c text N F IH]; intros t U; inversion U as [|? d ? t' E U']; subst; [constructor|].
      constructor; [|apply IH; exact U']. destruct (ceqb_spec c char_tab) as [->|NT]; [left; vm_compute; split; [discriminate|discriminate]|].
      assert (ord c <> 9) by (intros X; apply NT; apply ord_inj; exact X). unfold ignored in N. pose proof (ord_range c).
      destruct (Z.eq_dec (ord c) 10) as [X|X]; [right; apply ord_inj; exact X|left; lia].
    - intros r0 d ET. subst t. unfold untabbed in U. apply Forall2_app_inv_r in U. destruct U as (u1 & u2 & U1 & U2 & ->).
      inversion U2 as [|x d' xs ds E1 E2]; subst. inversion E2; subst. pose proof (K u1 x eq_refl) as IS.
      destruct (ceqb_spec x char_tab) as [X|X]; [rewrite X in IS; discriminate IS|exact IS]. }
  inversion A as [bs ls last r ts o Lb Bb BG LL EL C M|bs ls tail ts o EE Lb Bb NT HB C M| |]; subst; eapply GO; eassumption.
Qed.
Theorem C82_text e ch ch' b t : get_response e ch = (ch', Got b t) ->
  Forall (fun c => (32 <= ord c /\ ord c <> 127) \/ c = char_lf) t /\ ends_in_ink t.
Proof.
  assert (forall s ch', get_response e (mkChan false s) = (ch', Got b t) -> exists rest, answers e s (Got b t) rest) as LATER.
  { intros s c1 H. destruct (answers_total e s) as (o & rest & A). pose proof (proj2 (get_later e s o rest) A) as G.
    rewrite G in H. apply pair_equal_spec in H. destruct H as [_ ->]. exists rest. exact A. }
  intros H. assert (exists rest, answers e (c_unread ch) (Got b t) rest) as (rest & A); [|exact (got_text e _ b t rest A)].
  destruct ch as [[|] s]; [|exact (LATER _ _ H)]. cbn [c_unread].
  destruct (C82_first_response e s) as (F0 & F1 & F2). unfold new_channel in *. destruct s as [|c r].
  - rewrite (F0 eq_refl) in H. exact (LATER _ _ H).
  - destruct (existsb (ceqb c) [char_sp; char_tab; char_cr; char_lf; "#"%char; "="%char; "?"%char]) eqn:P.
    + rewrite (F1 c r eq_refl (proj1 (plausible_spec c) P)) in H. exact (LATER _ _ H).
    + rewrite (F2 c r eq_refl) in H; [discriminate|]. intros X. apply plausible_spec in X. congruence.
Qed.
Print Assumptions C82_text.

(** A whole conversation: a program that sends responses one after the other, each followed by an
    empty line, with any lines without anything to see in between, is understood: the n-th response
    is the answer to the n-th request. *)
Inductive well_spoken (e : ending) : bytes -> list outcome -> bytes -> Prop :=
| ws_end s : well_spoken e s [] s
| ws_more bs ls last rest ts o os left :
    Forall line bs -> Forall blank bs -> begun ls -> line last -> empty last -> Forall2 cleaned ls ts -> means ts o ->
    well_spoken e rest os left ->
    well_spoken e (List.concat bs ++ List.concat ls ++ last ++ rest) (o :: os) left.
Theorem C82_conversation e s os left : well_spoken e s os left ->
  (forall c r, s = c :: r -> plausible c) ->
  responses (List.length os) e (new_channel s) = os.
Proof.
  assert (forall s os left, well_spoken e s os left -> responses (List.length os) e (mkChan false s) = os) as LATER.
  { induction 1 as [s0|bs ls last rest ts o os0 left0 Lb Bb BG LL EL C M W IH]; [reflexivity|]. cbn [List.length responses].
    rewrite (proj2 (get_later e _ o rest) (an_response e bs ls last rest ts o Lb Bb BG LL EL C M)). rewrite IH. reflexivity. }
  intros W P. rewrite <- (LATER s os left W) at 2. unfold new_channel. destruct os as [|o os]; [reflexivity|]. cbn [List.length responses].
  destruct (C82_first_response e s) as (F0 & F1 & _). unfold new_channel in *.
  destruct s as [|c r]; [rewrite (F0 eq_refl); reflexivity|]. rewrite (F1 c r eq_refl (P c r eq_refl)). reflexivity.
Qed.
Print Assumptions C82_conversation.

(** Commands: the line that is sent is the words of the command; a program that has gone is reported
    as such, other errors in writing as errors in transport. *)
Theorem C82_send w command arguments :
  fst (send_command w command arguments) = join [char_sp] (command :: arguments) ++ [char_lf] /\
  (snd (send_command w command arguments) = None <-> w = Fine) /\
  (forall t, snd (send_command w command arguments) = Some (Transport t) <-> w = Fails_ t false) /\
  ((exists t, w = Fails_ t true) <-> snd (send_command w command arguments) = Some (Closed (str "engine has closed the command channel"))).
Proof.
  split; [reflexivity|]. destruct w as [|t [|]]; cbn [send_command snd]; (split; [|split]).
  1-9: split; intros; try discriminate; try congruence.
  all: try (destruct H as (? & ?); discriminate).
  all: try (exists t; reflexivity). all: try reflexivity.
Qed.
Print Assumptions C82_send.

(** Closing: both pipes are closed and the program is waited for, whatever fails; there is an error
    if and only if something failed; the exit status is known if and only if waiting succeeded. *)
Theorem C82_close c r w : let '(done, status, error) := close c r w in
  done = [ClosedCommandPipe; ClosedResponsePipe; Waited] /\
  (forall n, status = Some n <-> w = inl n) /\
  (error = None <-> c = Fine /\ r = Fine /\ exists n, w = inl n) /\
  (forall x, error = Some x -> exists t, x = Transport t).
Proof.
  unfold close. cbn beta iota zeta.
  split; [reflexivity|]. split; [destruct w; split; intros; congruence|]. split.
  - destruct c, r, w; cbn [app]; split; try discriminate; try (intros (? & ? & ? & ?); discriminate); eauto.
  - intros x H. destruct c, r, w; cbn [app] in H; try discriminate; injection H as <-; eexists; reflexivity.
Qed.
Print Assumptions C82_close.

(** FINDING: an error in closing the response pipe is mentioned twice. *)
Theorem C82_finding_twice t b n : close Fine (Fails_ t b) (inl n) =
  ([ClosedCommandPipe; ClosedResponsePipe; Waited], Some n,
   Some (Transport (str "error closing response pipe:" ++ [char_lf] ++ t ++ [char_lf] ++ t))).
Proof. unfold close. cbn [app join]. rewrite <- !app_assoc. reflexivity. Qed.
Print Assumptions C82_finding_twice.

(** FINDING: a response whose first line begins with a space or a tab is refused, though the first
    byte is accepted as plausible, and a stray byte that is ignored doesn't matter. *)
Example C82_finding_space :
  snd (get_response Eof (new_channel (str " = ok" ++ [char_lf; char_lf]))) =
    Failed (Protocol (str "no success/failure indication from engine: first line is ` = ok`")) /\
  snd (get_response Eof (mkChan false (chr 7 :: str "= ok" ++ [char_lf; char_lf]))) = Got false (str "ok").
Proof. split; vm_compute; reflexivity. Qed.

(** ** Examples *)
Definition px_lines (l : list string) : bytes := List.concat (map (fun s => str s ++ [char_lf]) l).
Example C82_example_responses :
  responses 5 Eof (new_channel (px_lines [" "; "= a	b  "; ""; ""; "?no"; "such"; ""; "nonsense"; ""; "=end"]%string)) =
  [Got false (str "a b"); Got true (str "no" ++ [char_lf] ++ str "such");
   Failed (Protocol (str "no success/failure indication from engine: first line is `nonsense`"));
   Got false (str "end"); Failed (Closed (str "engine has closed the response channel"))].
Proof. vm_compute. reflexivity. Qed.
Example C82_example_gmp : snd (get_response Silence (new_channel [chr 1; chr 160])) = Failed (Protocol (str "engine appears to be speaking GMP, not GTP!")) /\
  snd (get_response Silence (new_channel (str "Hello"))) = Failed (Protocol (str "engine isn't speaking GTP: first byte is 'H'")) /\
  snd (get_response Silence (new_channel [chr 200])) = Failed (Protocol (str "engine isn't speaking GTP: first byte is '\xc8'")) /\
  snd (get_response Silence (new_channel (str "= "))) = Failed Waits /\
  snd (get_response (Broken (str "oops")) (new_channel (str "= "))) = Failed (Transport (str "oops")).
Proof. repeat split; vm_compute; reflexivity. Qed.
Example C82_example_well_spoken : exists left, well_spoken Silence (px_lines [""; "= a"; ""; "=b"]%string) [Got false (str "a")] left.
Proof.
  exists (px_lines ["=b"]%string).
  change (px_lines [""; "= a"; ""; "=b"]%string) with (List.concat [[char_lf]] ++ List.concat [str "= a" ++ [char_lf]] ++ [char_lf] ++ px_lines ["=b"]%string).
  assert (line [char_lf]) as L0 by (exists []; split; [reflexivity|intros []]).
  eapply ws_more with (ts := [str "= a" ++ [char_lf]]).
  - constructor; [exact L0|constructor].
  - constructor; [|constructor]. constructor; [auto|constructor].
  - split; [|split].
    + constructor; [|constructor]. exists (str "= a"). split; [reflexivity|]. intros I. cbn in I. repeat (destruct I as [I|I]; [discriminate I|]). destruct I.
    + constructor; [|constructor]. intros X. apply empty_spec in X. vm_compute in X. discriminate.
    + intros X. apply blank_spec in X. vm_compute in X. discriminate.
  - exact L0.
  - apply empty_spec. reflexivity.
  - apply cleaned_lines. reflexivity.
  - destruct (means_total (str "= a" ++ [char_lf]) []) as (o & M); [discriminate|right; reflexivity|].
    assert (o = Got false (str "a")) as <-; [|exact M].
    rewrite <- (means_interpret _ o M); [vm_compute; reflexivity|right; reflexivity].
  - constructor.
Qed.
