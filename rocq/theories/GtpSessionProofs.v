(** Proofs about sessions and the protocol commands (C35). *)
From Verif Require Import Base Bytes PyStr Dict CommonModel CommonProofs SgfPropsProofs GtpModel GtpSpec GtpProofs GtpChannelProofs.

Lemma file_lines_of input : exists lines, file_lines input lines.
Proof.
  remember (List.length input) as n eqn:E. assert (List.length input <= n)%nat as L by lia. clear E. revert input L.
  induction n as [|n IH]; intros input L.
  - destruct input; [exists []; constructor|cbn in L; lia].
  - destruct (in_dec ascii_dec char_lf input) as [I|I].
    + assert (exists a b, input = (a ++ [char_lf]) ++ b /\ ~ In char_lf a) as (a & b & -> & N).
      { clear -I. induction input as [|c l IH]; [contradiction|]. destruct (ascii_dec c char_lf) as [->|D].
        - exists [], l. split; [reflexivity|]. intros [].
        - destruct IH as (a & b & -> & N); [destruct I; [congruence|assumption]|]. exists (c :: a), b. split; [reflexivity|].
          intros [H|H]; [congruence|contradiction]. }
      destruct (IH b) as (ls & F); [rewrite !app_length in L; cbn in L; lia|]. eexists. apply fl_line; eauto.
    + destruct input as [|c l]; [exists []; constructor|]. exists [c :: l]. apply fl_last; [discriminate|exact I].
Qed.

Section Engine.
Context {S : Type}.
Variable e : engine S.

Lemma session_served s input : exists s' out b lines responses,
  run_session e s input = (s', out, Ok b) /\ file_lines input lines /\ served e s lines s' responses b /\ out = List.concat responses.
Proof.
  destruct (file_lines_of input) as (lines & F).
  assert (exists s' out b responses, run_session e s input = (s', out, Ok b) /\ served e s lines s' responses b /\ out = List.concat responses)
    as (s' & out & b & responses & H); [|exists s', out, b, lines, responses; tauto].
  revert s. induction F as [|l NE NL|l rest ls NL F IH]; intros s.
  - exists s, [], false, []. split; [reflexivity|]. split; [constructor|reflexivity].
  - unfold run_session. cbn [session]. rewrite readline_nolf by exact NL. destruct l as [|c l]; [congruence|].
    destruct (reads_dec (c :: l)) as [(id & command & args & R)|R].
    + rewrite (handle_line_reads e s _ _ _ _ R). destruct (run_command e s command args) as [s' [[x t] b]] eqn:RC. destruct b.
      * exists s', (framed x id t), true, [framed x id t]. split; [reflexivity|]. split; [eapply sv_last; eauto|cbn; rewrite app_nil_r; reflexivity].
      * cbn [List.length session readline]. exists s', (framed x id t ++ []), false, [framed x id t]. split; [reflexivity|].
        split; [eapply sv_command; eauto; constructor|reflexivity].
    + rewrite handle_line_silent by exact R. cbn [List.length session readline]. exists s, [], false, [].
      split; [reflexivity|]. split; [apply sv_ignored; [exact R|constructor]|reflexivity].
  - rewrite run_session_line by exact NL. destruct (reads_dec (l ++ [char_lf])) as [(id & command & args & R)|R].
    + rewrite (handle_line_reads e s _ _ _ _ R). destruct (run_command e s command args) as [s' [[x t] b]] eqn:RC. destruct b.
      * exists s', (framed x id t), true, [framed x id t]. split; [reflexivity|]. split; [eapply sv_last; eauto|cbn; rewrite app_nil_r; reflexivity].
      * destruct (IH s') as (s2 & out & b & rs & Q & V & ->). rewrite Q. exists s2, (framed x id t ++ List.concat rs), b, (framed x id t :: rs).
        split; [reflexivity|]. split; [eapply sv_command; eauto|reflexivity].
    + rewrite handle_line_silent by exact R. destruct (IH s) as (s2 & out & b & rs & Q & V & ->). rewrite Q.
      exists s2, (List.concat rs), b, rs. split; [reflexivity|]. split; [apply sv_ignored; auto|reflexivity].
Qed.

End Engine.

(** ** The protocol commands *)

Lemma insert_sorted_In x y l : In y (insert_sorted x l) <-> y = x \/ In y l.
Proof.
  induction l as [|z l IH]; cbn [insert_sorted]; [cbn; intuition congruence|]. destruct (bytes_ltb z x); cbn [In]; rewrite ?IH; intuition congruence.
Qed.
Lemma sorted_In y l : In y (sorted l) <-> In y l.
Proof. induction l as [|x l IH]; [tauto|]. cbn [sorted fold_right]. fold (sorted l). rewrite insert_sorted_In, IH. cbn. intuition congruence. Qed.

Lemma insert_in_order x l : in_order l -> ~ In x l -> in_order (insert_sorted x l).
Proof.
  induction l as [|z l IH]; intros O N; cbn [insert_sorted]; [cbn; split; [intros y []|exact I]|]. destruct O as (A & B).
  destruct (bytes_ltb z x) eqn:E; cbn [in_order].
  - split; [|apply IH; auto; intros H; apply N; right; exact H]. intros y H. apply insert_sorted_In in H as [->|H]; auto.
  - split; [|split; auto]. intros y H. destruct (bytes_ltb_total _ _ E) as [T|T]; [|exfalso; apply N; left; exact T].
    destruct H as [<-|H]; [exact T|]. eapply bytes_ltb_trans; eauto.
Qed.
Lemma sorted_in_order l : NoDup l -> in_order (sorted l).
Proof.
  induction 1 as [|x l N D IH]; [exact I|]. cbn [sorted fold_right]. fold (sorted l). apply insert_in_order; [exact IH|].
  rewrite sorted_In. exact N.
Qed.

Lemma word_no_lf w : command_word w -> ~ In char_lf w.
Proof. intros (_ & F) I. rewrite Forall_forall in F. specialize (F _ I). vm_compute in F. destruct F as (F & _). congruence. Qed.

Lemma has2_words l : Forall command_word l -> has2 (join [char_lf] l) = false.
Proof.
  assert (forall w r, ~ In char_lf w -> starts_lf r = false -> has2 r = false -> has2 (w ++ r) = false /\ (w <> [] -> starts_lf (w ++ r) = false)) as A.
  { induction w as [|c w IH]; intros r N SL H; [split; [exact H|congruence]|]. cbn [app]. split.
    - rewrite has2_cons. destruct (ceqb_spec c char_lf) as [->|_]; [exfalso; apply N; left; reflexivity|]. cbn [andb orb]. apply IH; auto.
      intros I. apply N. right. exact I.
    - intros _. cbn [starts_lf]. destruct (ceqb_spec c char_lf) as [->|_]; [exfalso; apply N; left; reflexivity|reflexivity]. }
  assert (forall w r, ~ In char_lf w -> has2 r = false -> w <> [] -> has2 (w ++ r) = false /\ starts_lf (w ++ r) = false) as A'.
  { induction w as [|c w IH]; intros r N H NE; [congruence|]. cbn [app]. assert (ceqb c char_lf = false) as C.
    { destruct (ceqb_spec c char_lf) as [->|_]; [exfalso; apply N; left; reflexivity|reflexivity]. }
    split; [|cbn [starts_lf]; exact C]. rewrite has2_cons, C. cbn [andb orb]. destruct w as [|d w]; [exact H|].
    apply IH; [intros I; apply N; right; exact I|exact H|discriminate]. }
  assert (forall l, Forall command_word l -> l <> [] -> has2 (join [char_lf] l) = false /\ starts_lf (join [char_lf] l) = false) as B.
  { clear l. induction l as [|w l IH]; intros F NE; [congruence|]. inversion F as [|? ? W F']; subst.
    pose proof (word_no_lf w W) as N. pose proof (proj1 W) as NW. destruct l as [|w2 l].
    - cbn [join]. rewrite <- (app_nil_r w). apply A'; auto.
    - destruct (IH F') as (B1 & B2); [discriminate|]. change (join [char_lf] (w :: w2 :: l)) with (w ++ ([char_lf] ++ join [char_lf] (w2 :: l))).
      apply A'; auto. change ([char_lf] ++ join [char_lf] (w2 :: l)) with (char_lf :: join [char_lf] (w2 :: l)). rewrite has2_cons, B1, B2. reflexivity. }
  intros F. destruct l as [|w l]; [reflexivity|]. apply B; [exact F|discriminate].
Qed.

Lemma words_chars l c : Forall command_word l -> In c (join [char_lf] l) -> c = char_lf \/ (33 <= ord c /\ ord c <> 127).
Proof.
  induction l as [|w l IH]; intros F I; [contradiction|]. inversion F as [|? ? (_ & W) F']; subst. rewrite Forall_forall in W.
  destruct l as [|w2 l]; [right; apply W; exact I|].
  change (join [char_lf] (w :: w2 :: l)) with (w ++ ([char_lf] ++ join [char_lf] (w2 :: l))) in I.
  apply in_app_or in I as [I|I]; [right; auto|]. apply in_app_or in I as [[<-|[]]|I]; [left; reflexivity|]. apply IH; auto.
Qed.

Lemma words_end l u c : Forall command_word l -> join [char_lf] l = u ++ [c] -> 33 <= ord c.
Proof.
  revert u. induction l as [|w l IH]; intros u F E; [destruct u; discriminate|]. inversion F as [|? ? (NE & W) F']; subst.
  destruct l as [|w2 l].
  - cbn [join] in E. rewrite Forall_forall in W. destruct (W c); [|assumption]. rewrite E. apply in_or_app. right. left. reflexivity.
  - change (join [char_lf] (w :: w2 :: l)) with (w ++ ([char_lf] ++ join [char_lf] (w2 :: l))) in E.
    assert (exists v d, join [char_lf] (w2 :: l) = v ++ [d]) as (v & d & J).
    { destruct (exists_last (l := join [char_lf] (w2 :: l))) as (v & d & J); [|eauto].
      inversion F' as [|? ? (NE2 & _) _]; subst. destruct w2; [congruence|]. destruct l; discriminate. }
    rewrite J in E. rewrite !app_assoc in E. apply app_inj_tail in E as (_ & <-). eapply IH; eauto.
Qed.

Lemma words_neat l : Forall command_word l -> neat (join [char_lf] l).
Proof.
  intros F. split; [|split].
  - apply Forall_forall. intros c I. destruct (words_chars l c F I) as [->|H]; [left; reflexivity|right; lia].
  - intros H. apply has2_within in H. rewrite has2_words in H by exact F. discriminate.
  - intros u c E. pose proof (words_end l u c F E) as H. destruct (is_space c) eqn:S; [|reflexivity]. exfalso.
    unfold is_space in S. lia.
Qed.

Section Protocol.
Context {S : Type}.

Lemma protocol_commands (e0 : engine S) s args :
  let e := add_protocol_commands e0 in
  run_command e s (str "quit") args = (s, (false, [], true)) /\
  run_command e s (str "protocol_version") args = (s, (false, str "2", false)) /\
  (forall c, In c [str "quit"; str "protocol_version"; str "known_command"; str "list_commands"] ->
     In c (dkeys (e_handlers e))) /\
  (forall c, In c (dkeys (e_handlers e0)) -> In c (dkeys (e_handlers e))) /\
  (forall c rest, run_command e s (str "known_command") (c :: rest) =
     (s, (false, (if in_dec (list_eq_dec ascii_dec) c (dkeys (e_handlers e)) then str "true" else str "false"), false))) /\
  run_command e s (str "known_command") [] = (s, (false, str "false", false)) /\
  (forall c, ~ In c (dkeys (e_handlers e)) -> forall a, run_command e s c a = (s, (true, str "unknown command", false))) /\
  (NoDup (dkeys (e_handlers e)) -> Forall command_word (dkeys (e_handlers e)) ->
     exists l, in_order l /\ (forall c, In c l <-> In c (dkeys (e_handlers e))) /\
       run_command e s (str "list_commands") args = (s, (false, join [char_lf] l, false))).
Proof.
  intros e.
  assert (dget (str "quit") (e_handlers e) = Some Quit) as G1 by (unfold e, add_protocol_commands, add_command; cbn [e_handlers]; rewrite ?dget_dset_same; reflexivity).
  assert (dget (str "protocol_version") (e_handlers e) = Some Protocol_version) as G2.
  { unfold e, add_protocol_commands, add_command; cbn [e_handlers]. rewrite dget_dset_other by discriminate. rewrite dget_dset_same. reflexivity. }
  assert (dget (str "list_commands") (e_handlers e) = Some List_commands) as G3.
  { unfold e, add_protocol_commands, add_command; cbn [e_handlers]. do 2 rewrite dget_dset_other by discriminate. rewrite dget_dset_same. reflexivity. }
  assert (dget (str "known_command") (e_handlers e) = Some Known_command) as G4.
  { unfold e, add_protocol_commands, add_command; cbn [e_handlers]. do 3 rewrite dget_dset_other by discriminate. rewrite dget_dset_same. reflexivity. }
  assert (forall c h, dget c (e_handlers e) = Some h -> In c (dkeys (e_handlers e))) as GI.
  { intros c h G. destruct (in_dec (list_eq_dec ascii_dec) c (dkeys (e_handlers e))) as [I|N]; [exact I|]. apply dget_None in N. congruence. }
  assert (forall c, dmem c (e_handlers e) = if in_dec (list_eq_dec ascii_dec) c (dkeys (e_handlers e)) then true else false) as DM.
  { intros c. unfold dmem. destruct (in_dec (list_eq_dec ascii_dec) c (dkeys (e_handlers e))) as [I|N].
    - destruct (dget c (e_handlers e)) eqn:E; [reflexivity|]. apply dget_None in E. contradiction.
    - apply dget_None in N. rewrite N. reflexivity. }
  unfold run_command, do_command. rewrite G1, G2, G3, G4. cbn [call_handler].
  split; [reflexivity|]. split; [reflexivity|].
  split; [intros c [<-|[<-|[<-|[<-|[]]]]]; eapply GI; eauto|].
  split. { intros c I. destruct (dget c (e_handlers e)) as [h|] eqn:E; [eapply GI; eauto|]. exfalso.
    assert (dget c (e_handlers e0) <> None) as N by (intros H; apply dget_None in H; contradiction). revert E.
    unfold e, add_protocol_commands, add_command. cbn [e_handlers].
    repeat (match goal with |- dget c (dset ?k _ _) = None -> _ => destruct (list_eq_dec ascii_dec k c) as [<-|];
      [rewrite dget_dset_same; discriminate|rewrite dget_dset_other by congruence] end). exact N. }
  split; [intros c rest; rewrite DM; destruct (in_dec (list_eq_dec ascii_dec) c (dkeys (e_handlers e))); reflexivity|]. split; [reflexivity|].
  split; [intros c N a; apply dget_None in N; rewrite N; reflexivity|].
  intros ND F. exists (list_commands e). split; [apply sorted_in_order; exact ND|]. split; [intros c; apply sorted_In|].
  rewrite clean_of_neat; [reflexivity|]. apply words_neat. apply Forall_forall. intros c I. unfold list_commands in I. apply (proj1 (sorted_In _ _)) in I.
  rewrite Forall_forall in F. auto.
Qed.

End Protocol.
