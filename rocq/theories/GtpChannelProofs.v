(** Proofs about responses, sessions and channels. *)
From Verif Require Import Base Bytes PyStr Dict CommonModel SgfPropsModel GtpModel GtpSpec GtpProofs.

(** ** Newlines in a row *)

Fixpoint has2 (s : bytes) : bool :=
  match s with
  | a :: r => match r with b :: _ => (ceqb a char_lf && ceqb b char_lf) || has2 r | [] => false end
  | [] => false
  end.

Definition starts_lf (s : bytes) : bool := match s with c :: _ => ceqb c char_lf | [] => false end.
Definition starts_2lf (s : bytes) : bool := match s with c :: r => ceqb c char_lf && starts_lf r | [] => false end.

Fixpoint has3 (s : bytes) : bool :=
  match s with
  | a :: r => (ceqb a char_lf && starts_2lf r) || has3 r
  | [] => false
  end.

Lemma has2_cons a s : has2 (a :: s) = (ceqb a char_lf && starts_lf s) || has2 s.
Proof. destruct s; simpl; rewrite ?andb_false_r; reflexivity. Qed.

Lemma within_cons a c s : within a (c :: s) <-> (exists v, c :: s = a ++ v) \/ within a s.
Proof.
  split.
  - intros (u & v & E). destruct u as [|x u]; [left; exists v; exact E|].
    right. simpl in E. injection E as -> ->. exists u, v. reflexivity.
  - intros [(v & E)|(u & v & ->)]; [exists [], v; exact E|exists (c :: u), v; reflexivity].
Qed.

Lemma has2_within s : has2 s = true <-> within [char_lf; char_lf] s.
Proof.
  induction s as [|c s IH].
  - split; [discriminate|]. intros (u & v & E). destruct u; discriminate.
  - rewrite has2_cons, within_cons, orb_true_iff, andb_true_iff, IH.
    assert (ceqb c char_lf = true /\ starts_lf s = true <-> exists v, c :: s = [char_lf; char_lf] ++ v) as ->; [|tauto].
    split.
    + intros [A B]. destruct (ceqb_spec c char_lf) as [->|]; [|discriminate].
      destruct s as [|d s]; [discriminate|]. simpl in B.
      destruct (ceqb_spec d char_lf) as [->|]; [|discriminate]. exists s. reflexivity.
    + intros (v & E). simpl in E. injection E as -> ->. split; reflexivity.
Qed.

Lemma has3_within s : has3 s = true <-> within [char_lf; char_lf; char_lf] s.
Proof.
  induction s as [|c s IH].
  - split; [discriminate|]. intros (u & v & E). destruct u; discriminate.
  - cbn [has3]. rewrite within_cons, orb_true_iff, andb_true_iff, IH.
    assert (ceqb c char_lf = true /\ starts_2lf s = true <-> exists v, c :: s = [char_lf; char_lf; char_lf] ++ v) as ->; [|tauto].
    split.
    + intros [A B]. destruct (ceqb_spec c char_lf) as [->|]; [|discriminate].
      destruct s as [|d [|d' s]]; try discriminate.
      { simpl in B. rewrite andb_false_r in B. discriminate. }
      simpl in B. apply andb_true_iff in B. destruct B as [B B2].
      destruct (ceqb_spec d char_lf) as [->|]; [|discriminate].
      destruct (ceqb_spec d' char_lf) as [->|]; [|discriminate]. exists s. reflexivity.
    + intros (v & E). simpl in E. injection E as -> ->. split; reflexivity.
Qed.

Lemma replace_unfold a b r : replace_blank_lines (a :: b :: r) =
  if ceqb a char_lf && ceqb b char_lf then char_lf :: "."%char :: char_lf :: replace_blank_lines r
  else a :: replace_blank_lines (b :: r).
Proof. reflexivity. Qed.

Lemma replace_head s : hd_error (replace_blank_lines s) = hd_error s.
Proof.
  destruct s as [|a [|b r]]; [reflexivity|reflexivity|]. rewrite replace_unfold.
  destruct (ceqb_spec a char_lf) as [->|]; [|reflexivity]. destruct (ceqb b char_lf); reflexivity.
Qed.

Lemma starts_hd s : starts_lf s = match hd_error s with Some c => ceqb c char_lf | None => false end.
Proof. destruct s; reflexivity. Qed.

Lemma replace_starts s : starts_lf (replace_blank_lines s) = starts_lf s.
Proof. rewrite !starts_hd, replace_head. reflexivity. Qed.

Lemma replace_has2 s : has2 (replace_blank_lines s) = has3 s.
Proof.
  remember (List.length s) as n eqn:L. revert s L.
  induction n as [n IH] using lt_wf_ind. intros s L.
  destruct s as [|a [|b r]]; [reflexivity|simpl; rewrite andb_false_r; reflexivity|].
  rewrite replace_unfold. destruct (ceqb a char_lf) eqn:A.
  - destruct (ceqb b char_lf) eqn:B; cbn [andb].
    + rewrite !has2_cons.
      rewrite (IH (List.length r) ltac:(simpl in L; lia) r eq_refl).
      rewrite replace_starts. cbn [has3 starts_2lf starts_lf]. rewrite A, B.
      replace (ceqb "." char_lf) with false by reflexivity.
      replace (ceqb char_lf char_lf) with true by reflexivity.
      cbn [andb orb starts_lf]. rewrite ?andb_true_l. destruct (starts_lf r) eqn:K; cbn [orb andb].
      * replace (ceqb "." char_lf) with false by reflexivity. reflexivity.
      * replace (ceqb "." char_lf) with false by reflexivity. cbn [orb].
        destruct r as [|c r]; [reflexivity|]. cbn [starts_2lf]. cbn [starts_lf] in K. rewrite K. reflexivity.
    + rewrite has2_cons, replace_starts.
      rewrite (IH (List.length (b :: r)) ltac:(simpl in L |- *; lia) (b :: r) eq_refl).
      cbn [has3 starts_2lf starts_lf]. rewrite A, B. reflexivity.
  - cbn [andb]. rewrite has2_cons.
    rewrite (IH (List.length (b :: r)) ltac:(simpl in L |- *; lia) (b :: r) eq_refl).
    change (has3 (a :: b :: r)) with ((ceqb a char_lf && starts_2lf (b :: r)) || has3 (b :: r)).
    rewrite A. reflexivity.
Qed.

Definition ends_ok (s : bytes) : Prop := forall u c, s = u ++ [c] -> is_space c = false.

Lemma ends_ok_rev s : ends_ok s <-> (forall c r, rev s = c :: r -> is_space c = false).
Proof.
  split.
  - intros H c r E. apply (H (rev r)). rewrite <- (rev_involutive s), E. reflexivity.
  - intros H u c ->. apply (H c (rev u)). rewrite rev_app_distr. reflexivity.
Qed.

Lemma lstrip_no_space s : forall c r, lstrip s = c :: r -> is_space c = false.
Proof.
  induction s as [|a s IH]; intros c r; simpl; [discriminate|].
  destruct (is_space a) eqn:E; [apply IH|]. intros H. injection H as <- <-. exact E.
Qed.

Lemma rstrip_ends s : ends_ok (rstrip s).
Proof.
  apply ends_ok_rev. unfold rstrip. rewrite rev_involutive. apply lstrip_no_space.
Qed.

Lemma rstrip_id s : ends_ok s -> rstrip s = s.
Proof.
  intros H. unfold rstrip. rewrite lstrip_nonspace; [apply rev_involutive|].
  apply ends_ok_rev. exact H.
Qed.

Lemma rstrip_app_space s c : is_space c = true -> rstrip (s ++ [c]) = rstrip s.
Proof. intros H. unfold rstrip. rewrite rev_app_distr. simpl. rewrite H. reflexivity. Qed.

Lemma replace_last s d : List.last (replace_blank_lines s) d = List.last s d.
Proof.
  remember (List.length s) as n eqn:L. revert s L.
  induction n as [n IH] using lt_wf_ind. intros s L.
  destruct s as [|a [|b r]]; [reflexivity|reflexivity|].
  rewrite replace_unfold. destruct (ceqb_spec a char_lf) as [->|A].
  - destruct (ceqb_spec b char_lf) as [->|B]; cbn [andb].
    + destruct r as [|c r]; [reflexivity|].
      pose proof (replace_head (c :: r)) as Hd.
      destruct (replace_blank_lines (c :: r)) as [|x y] eqn:E; [discriminate Hd|].
      change (List.last (char_lf :: char_lf :: c :: r) d) with (List.last (c :: r) d).
      change (List.last (char_lf :: "."%char :: char_lf :: x :: y) d) with (List.last (x :: y) d).
      rewrite <- E. apply (IH (List.length (c :: r))); simpl in L |- *; lia.
    + pose proof (replace_head (b :: r)) as Hd.
      destruct (replace_blank_lines (b :: r)) as [|x y] eqn:E; [discriminate Hd|].
      change (List.last (char_lf :: b :: r) d) with (List.last (b :: r) d).
      change (List.last (char_lf :: x :: y) d) with (List.last (x :: y) d).
      rewrite <- E. apply (IH (List.length (b :: r))); simpl in L |- *; lia.
  - cbn [andb]. pose proof (replace_head (b :: r)) as Hd.
    destruct (replace_blank_lines (b :: r)) as [|x y] eqn:E; [discriminate Hd|].
    change (List.last (a :: b :: r) d) with (List.last (b :: r) d).
    change (List.last (a :: x :: y) d) with (List.last (x :: y) d).
    rewrite <- E. apply (IH (List.length (b :: r))); simpl in L |- *; lia.
Qed.

Lemma ends_ok_last s : ends_ok s <-> (is_space (List.last s "a"%char) = false).
Proof.
  split.
  - intros H. destruct s as [|c s] using rev_ind; [reflexivity|].
    rewrite last_last. apply (H s c eq_refl).
  - intros H u c ->. rewrite last_last in H. exact H.
Qed.

Lemma last_map (f : ascii -> ascii) s d : List.last (map f s) (f d) = f (List.last s d).
Proof. induction s as [|a [|b s] IH]; simpl in *; auto. Qed.

Lemma replace_Forall (P : ascii -> Prop) s : P "."%char -> Forall P s -> Forall P (replace_blank_lines s).
Proof.
  intros D. remember (List.length s) as n eqn:L. revert s L.
  induction n as [n IH] using lt_wf_ind. intros s L F.
  destruct s as [|a [|b r]]; [constructor|exact F|].
  rewrite replace_unfold. inversion F as [|? ? Pa F1]; subst. inversion F1 as [|? ? Pb F2]; subst.
  destruct (ceqb_spec a char_lf) as [->|A].
  - destruct (ceqb_spec b char_lf) as [->|B]; cbn [andb].
    + do 3 (constructor; auto). apply (IH (List.length r)); auto. simpl. lia.
    + constructor; auto. apply (IH (List.length (b :: r))); auto.
  - constructor; auto. apply (IH (List.length (b :: r))); auto.
Qed.

Lemma lstrip_Forall (P : ascii -> Prop) s : Forall P s -> Forall P (lstrip s).
Proof.
  induction 1 as [|c s Pc F IH]; simpl; [constructor|]. destruct (is_space c); auto.
Qed.

Lemma rstrip_Forall (P : ascii -> Prop) s : Forall P s -> Forall P (rstrip s).
Proof. intros F. unfold rstrip. apply Forall_rev, lstrip_Forall, Forall_rev, F. Qed.

Lemma filter_id {A} (f : A -> bool) l : Forall (fun c => f c = true) l -> filter f l = l.
Proof.
  induction 1 as [|c l Fc F IH]; simpl; auto. rewrite Fc. congruence.
Qed.

Lemma lf_ord c : c = char_lf <-> ord c = 10.
Proof. split; [intros ->; reflexivity|]. intros H. apply ord_inj. exact H. Qed.
Lemma tab_ord c : c = char_tab <-> ord c = 9.
Proof. split; [intros ->; reflexivity|]. intros H. apply ord_inj. exact H. Qed.

Lemma not_response_control c :
  is_response_control c = false <-> (c = char_lf \/ c = char_tab \/ (32 <= ord c /\ ord c <> 127)).
Proof.
  rewrite lf_ord, tab_ord. unfold is_response_control. pose proof (ord_range c).
  rewrite !orb_false_iff, andb_false_iff, !Z.leb_gt, Z.eqb_neq. lia.
Qed.

Lemma tab_map_has2 s : has2 (tabs_to_spaces s) = has2 s.
Proof.
  unfold tabs_to_spaces. induction s as [|a s IH]; [reflexivity|].
  cbn [map]. rewrite !has2_cons, IH. f_equal. f_equal.
  - destruct (ceqb_spec a char_tab) as [->|]; reflexivity.
  - destruct s as [|b s]; [reflexivity|]. cbn [map starts_lf].
    destruct (ceqb_spec b char_tab) as [->|]; reflexivity.
Qed.

Lemma clean_controls r :
  Forall (fun c => c = char_lf \/ (32 <= ord c /\ ord c <> 127)) (clean_response r).
Proof.
  unfold clean_response, tabs_to_spaces. apply Forall_forall. intros c I.
  apply in_map_iff in I. destruct I as (x & E & I). apply filter_In in I. destruct I as [_ K].
  apply negb_true_iff, not_response_control in K.
  rewrite <- E. destruct (ceqb_spec x char_tab) as [Ex|N]; [right; vm_compute; split; congruence|].
  tauto.
Qed.

Lemma clean_printable r : printable r ->
  clean_response r = tabs_to_spaces (replace_blank_lines (rstrip r)).
Proof.
  intros P. unfold clean_response. rewrite filter_id; [reflexivity|].
  apply replace_Forall; [reflexivity|]. apply rstrip_Forall.
  eapply Forall_impl; [|exact P]. intros c H. apply not_response_control in H. rewrite H. reflexivity.
Qed.

Lemma clean_ends r : printable r -> ends_ok (clean_response r).
Proof.
  intros P. rewrite clean_printable by auto. apply ends_ok_last.
  unfold tabs_to_spaces.
  change "a"%char with ((fun c => if ceqb c char_tab then char_sp else c) "a"%char).
  rewrite last_map, replace_last.
  pose proof (rstrip_ends r) as E. apply ends_ok_last in E.
  destruct (ceqb_spec (List.last (rstrip r) "a"%char) char_tab) as [Q|]; [|exact E].
  rewrite Q in E. discriminate.
Qed.

Theorem clean_neat r : printable r ->
  (neat (clean_response r) <-> ~ within [char_lf; char_lf; char_lf] (rstrip r)).
Proof.
  intros P. unfold neat.
  assert (within [char_lf; char_lf] (clean_response r) <-> within [char_lf; char_lf; char_lf] (rstrip r)) as ->.
  { rewrite <- has2_within, <- has3_within, clean_printable, tab_map_has2, replace_has2 by auto. tauto. }
  split; [tauto|]. intros H. split; [apply clean_controls|]. split; auto. apply clean_ends; auto.
Qed.

Lemma replace_id s : has2 s = false -> replace_blank_lines s = s.
Proof.
  induction s as [|a s IH]; [reflexivity|]. intros H. rewrite has2_cons in H.
  apply orb_false_iff in H. destruct H as [H1 H2]. specialize (IH H2).
  destruct s as [|b s]; [reflexivity|]. rewrite replace_unfold. cbn [starts_lf] in H1.
  rewrite H1, IH. reflexivity.
Qed.

Lemma tabs_id s : Forall (fun c => c <> char_tab) s -> tabs_to_spaces s = s.
Proof.
  induction 1 as [|c s N F IH]; [reflexivity|]. cbn [tabs_to_spaces map].
  destruct (ceqb_spec c char_tab); [congruence|]. unfold tabs_to_spaces in IH. rewrite IH. reflexivity.
Qed.

Lemma neat_no_tabs s : neat s -> Forall (fun c => c <> char_tab) s.
Proof.
  intros (F & _). eapply Forall_impl; [|exact F]. intros c [->|[L _]]; [discriminate|].
  intros ->. vm_compute in L. auto.
Qed.

Lemma neat_printable s : neat s -> printable s.
Proof. intros (F & _). eapply Forall_impl; [|exact F]. simpl. tauto. Qed.

Lemma neat_has2 s : neat s -> has2 s = false.
Proof.
  intros (_ & N & _). destruct (has2 s) eqn:E; auto. apply has2_within in E. tauto.
Qed.

Theorem clean_of_neat r : neat r -> clean_response r = r.
Proof.
  intros N. rewrite clean_printable by (apply neat_printable; auto).
  rewrite rstrip_id by (destruct N as (_ & _ & N); exact N). rewrite replace_id by (apply neat_has2; auto).
  apply tabs_id, neat_no_tabs, N.
Qed.

(** ** Sessions *)

Lemma readline_spec s : forall l r, readline s = (l, r) ->
  s = l ++ r /\ ((exists u, l = u ++ [char_lf] /\ ~ In char_lf u) \/ (r = [] /\ ~ In char_lf l)).
Proof.
  induction s as [|c s IH]; intros l r; simpl.
  - intros E. injection E as <- <-. split; [reflexivity|]. right. split; [reflexivity|]. intros [].
  - destruct (ceqb_spec c char_lf) as [->|N].
    + intros E. injection E as <- <-. split; [reflexivity|]. left. exists []. split; [reflexivity|]. intros [].
    + destruct (readline s) as [l' r'] eqn:E. intros H. injection H as <- <-.
      destruct (IH l' r' eq_refl) as (-> & [(u & -> & Nu)|[-> Nu]]); (split; [reflexivity|]).
      * left. exists (c :: u). split; [reflexivity|]. intros [K|K]; [congruence|tauto].
      * right. split; [reflexivity|]. intros [K|K]; [congruence|tauto].
Qed.

Lemma readline_line u rest : ~ In char_lf u -> readline ((u ++ [char_lf]) ++ rest) = (u ++ [char_lf], rest).
Proof.
  induction u as [|c u IH]; intros N; simpl; [reflexivity|].
  destruct (ceqb_spec c char_lf) as [->|]; [exfalso; apply N; left; reflexivity|].
  simpl in IH. rewrite IH by (intros K; apply N; right; exact K). reflexivity.
Qed.

Lemma readline_nolf u : ~ In char_lf u -> readline u = (u, []).
Proof.
  induction u as [|c u IH]; intros N; simpl; [reflexivity|].
  destruct (ceqb_spec c char_lf) as [->|]; [exfalso; apply N; left; reflexivity|].
  rewrite IH by (intros K; apply N; right; exact K). reflexivity.
Qed.

Section Engine.
Context {S : Type}.
Variable e : engine S.

(** Every line either gets no response or a framed one. *)
Lemma reads_dec line : (exists id command args, reads line id command args) \/
                       (forall id command args, ~ reads line id command args).
Proof.
  destruct (line_words_total line) as [ws W]. destruct ws as [|w rest].
  - right. intros id command args R. pose proof (line_words_split _ _ W) as P.
    inversion R as [? ? W'|? ? ? ? W'|? ? ? ? W']; subst; apply line_words_split in W'; rewrite P in W'; discriminate.
  - destruct (match_id w) as [[x y]|] eqn:E.
    + pose proof E as M. apply match_id_some in E. destruct E as (-> & (n & Nm) & D).
      destruct y as [|c y].
      * rewrite app_nil_r in *. destruct rest as [|w2 rest].
        { right. intros id command args R. pose proof (line_words_split _ _ W) as P.
          inversion R as [w a W' Nn|num m c a W' Nm' Nc Nd|? ? ? ? W']; subst; apply line_words_split in W'; rewrite P in W'.
          - injection W' as <- <-. apply (Nn x [] n); auto. rewrite app_nil_r. reflexivity.
          - injection W' as W1 W2. rewrite W1 in M. rewrite (match_id_number _ _ _ Nm' Nd) in M.
            injection M as _ M. congruence.
          - discriminate. }
        left. exists (echoed x n), w2, rest. eapply reads_separate; eauto.
      * left. exists (echoed x n), (c :: y), rest. eapply reads_joined; eauto. discriminate.
    + left. exists None, w, rest. apply reads_plain; auto. apply match_id_none. exact E.
Qed.

Lemma handle_line_ok s line : exists s' r b, handle_line e s line = (s', Ok (r, b)).
Proof.
  destruct (reads_dec line) as [(id & command & args & R)|R].
  - rewrite (handle_line_reads e s line _ _ _ R).
    destruct (run_command e s command args) as [s' [[x t] b]]. eauto.
  - rewrite handle_line_silent by exact R. eauto.
Qed.

Lemma session_fuel f1 f2 s input : (List.length input < f1)%nat -> (List.length input < f2)%nat ->
  session f1 e s input = session f2 e s input.
Proof.
  revert f2 s input. induction f1 as [|f1 IH]; intros f2 s input L1 L2; [lia|].
  destruct f2 as [|f2]; [lia|]. cbn [session].
  destruct (readline input) as [[|c l] rest] eqn:E; [reflexivity|].
  destruct (handle_line e s (c :: l)) as [s' [[response b]|x]]; [|reflexivity].
  destruct b; [reflexivity|]. apply readline_spec in E. destruct E as (E & _).
  rewrite (IH f2 s' rest); [reflexivity| |]; subst input; simpl in L1, L2; rewrite app_length in *; lia.
Qed.

Lemma run_session_nil s : run_session e s [] = (s, [], Ok false).
Proof. reflexivity. Qed.

Lemma run_session_line s u rest : ~ In char_lf u ->
  run_session e s ((u ++ [char_lf]) ++ rest) =
  match handle_line e s (u ++ [char_lf]) with
  | (s', Err x) => (s', [], Err x)
  | (s', Ok (response, end_session)) =>
      let w := match response with Some t => t | None => [] end in
      if end_session then (s', w, Ok true)
      else let '(s'', w', r) := run_session e s' rest in (s'', w ++ w', r)
  end.
Proof.
  intros N. unfold run_session. cbn [session]. rewrite readline_line by exact N.
  destruct (u ++ [char_lf]) as [|c l] eqn:E; [destruct u; discriminate|].
  destruct (handle_line e s (c :: l)) as [s' [[response b]|x]]; [|reflexivity].
  destruct b; [reflexivity|].
  rewrite (session_fuel _ (Datatypes.S (List.length rest)) s' rest); [reflexivity| |]; simpl; rewrite ?app_length; lia.
Qed.

Lemma run_session_ok s input : exists s' out b, run_session e s input = (s', out, Ok b) /\
  exists frames, out = List.concat (map (fun f => framed (fst (fst f)) (snd (fst f)) (snd f)) frames).
Proof.
  unfold run_session. remember (Datatypes.S (List.length input)) as f eqn:F.
  assert (List.length input < f)%nat as L by lia. clear F. revert s input L.
  induction f as [|f IH]; intros s input L; [lia|]. cbn [session].
  destruct (readline input) as [[|c l] rest] eqn:E.
  { exists s, [], false. split; [reflexivity|]. exists []. reflexivity. }
  apply readline_spec in E. destruct E as (E & _).
  assert (List.length rest < f)%nat as L' by (subst input; simpl in L; rewrite app_length in L; lia).
  destruct (reads_dec (c :: l)) as [(id & command & args & R)|R].
  - rewrite (handle_line_reads e s _ _ _ _ R).
    destruct (run_command e s command args) as [s' [[x t] b]]. destruct b.
    + exists s', (framed x id t), true. split; [reflexivity|]. exists [((x, id), t)]. simpl. rewrite app_nil_r. reflexivity.
    + destruct (IH s' rest L') as (s'' & out & b' & Q & (fr & Fr)). rewrite Q.
      exists s'', (framed x id t ++ out), b'. split; [reflexivity|]. exists (((x, id), t) :: fr).
      rewrite Fr. reflexivity.
  - rewrite handle_line_silent by exact R.
    destruct (IH s rest L') as (s'' & out & b' & Q & (fr & Fr)). rewrite Q.
    exists s'', out, b'. split; [reflexivity|]. exists fr. exact Fr.
Qed.

(** ** Commands sent by the controller *)

Definition command_line (command : bytes) (args : list bytes) : bytes :=
  join [char_sp] (command :: args).

Definition plain_char (c : ascii) : Prop := c <> "#"%char /\ ((33 <= ord c <= 126) \/ 128 <= ord c).

Lemma plain_not_blank c : plain_char c -> ~ blank c.
Proof. intros [_ H] [->| ->]; vm_compute in H; destruct H as [[H1 H2]|H]; auto. Qed.

Lemma plain_not_control c : plain_char c -> ~ control c.
Proof. intros [_ H] [[K _]|K]; lia. Qed.

Lemma plain_not_lf c : plain_char c -> c <> char_lf.
Proof. intros [_ H] ->. vm_compute in H. destruct H as [[H1 H2]|H]; auto. Qed.

Lemma command_line_no_lf ws : Forall (fun w => w <> [] /\ Forall plain_char w) ws ->
  ~ In char_lf (join [char_sp] ws).
Proof.
  induction 1 as [|w ws [N F] G IH]; [intros []|].
  assert (~ In char_lf w) as K.
  { intros I. rewrite Forall_forall in F. apply F in I. apply plain_not_lf in I. congruence. }
  destruct ws as [|w2 ws]; [exact K|]. cbn [join]. rewrite !in_app_iff.
  intros [I|[I|I]]; [tauto| |tauto]. destruct I as [I|[]]. discriminate.
Qed.

Lemma payload_plain t : Forall (fun c => c <> "#"%char /\ ~ control c) t -> payload (t ++ [char_lf]) t.
Proof.
  induction 1 as [|c t [H1 H2] F IH]; simpl.
  - apply payload_control; [|constructor]. left. vm_compute. split; congruence.
  - apply payload_char; auto.
Qed.

Lemma spaced_join ws : Forall (fun w => w <> [] /\ Forall plain_char w) ws -> spaced (join [char_sp] ws) ws.
Proof.
  induction 1 as [|w ws [N F] G IH]; [constructor; constructor|].
  assert (Forall (fun c => ~ blank c) w) as B by (eapply Forall_impl; [|exact F]; apply plain_not_blank).
  destruct ws as [|w2 ws].
  - cbn [join]. rewrite <- (app_nil_r w) at 1. change (w ++ []) with ([] ++ w ++ []).
    constructor; auto; try (intros ? ? ?; discriminate).
  - change (join [char_sp] (w :: w2 :: ws)) with ([] ++ w ++ (char_sp :: join [char_sp] (w2 :: ws))).
    constructor; auto.
    + intros c r E. injection E as <- _. left. reflexivity.
    + apply spaced_blank_cons; [left; reflexivity|exact IH].
Qed.

Lemma join_Forall (P : ascii -> Prop) sep ws : Forall P sep -> Forall (Forall P) ws -> Forall P (join sep ws).
Proof.
  intros F. induction 1 as [|w ws Pw G IH]; [constructor|]. destruct ws; [exact Pw|].
  cbn [join]. rewrite !Forall_app. auto.
Qed.

Lemma transmissible_reads command args : transmissible command args ->
  reads (command_line command args ++ [char_lf]) None command args.
Proof.
  intros (F & N). fold plain_char in F. apply reads_plain; [|exact N].
  exists (command_line command args). split.
  - apply payload_plain. apply join_Forall.
    + repeat constructor; try discriminate. intros [[K _]|K]; vm_compute in K; discriminate.
    + eapply Forall_impl; [|exact F]. intros w [_ W]. eapply Forall_impl; [|exact W].
      intros c H. split; [apply H|apply plain_not_control; exact H].
  - apply spaced_join. exact F.
Qed.

Lemma transmissible_sendable command args : transmissible command args -> sendable command args = true.
Proof.
  intros (F & _). unfold sendable.
  change (forallb is_well_formed_gtp_word (command :: args) = true).
  apply Forall_forallb. eapply Forall_impl; [|exact F]. intros w [N W].
  unfold is_well_formed_gtp_word. destruct w as [|c w]; [congruence|]. apply Forall_forallb.
  eapply Forall_impl; [|exact W]. intros x [_ H]. unfold word_char. lia.
Qed.

(** State and end of session after a list of commands. *)
Fixpoint after (s : S) (cs : list (bytes * list bytes)) : S * bool :=
  match cs with
  | [] => (s, false)
  | (command, args) :: cs' =>
      let '(s', (_, _, end_session)) := run_command e s command args in
      if end_session then (s', true) else after s' cs'
  end.

Lemma answers_app s cs cs' : answers e s (cs ++ cs') =
  answers e s cs ++ if snd (after s cs) then [] else answers e (fst (after s cs)) cs'.
Proof.
  revert s. induction cs as [|[command args] cs IH]; intros s; [reflexivity|].
  cbn [app answers after]. destruct (run_command e s command args) as [s' [[x t] b]].
  destruct b; [reflexivity|]. rewrite IH. reflexivity.
Qed.

Lemma after_app s cs cs' : after s (cs ++ cs') =
  if snd (after s cs) then after s cs else after (fst (after s cs)) cs'.
Proof.
  revert s. induction cs as [|[command args] cs IH]; intros s; [reflexivity|].
  cbn [app after]. destruct (run_command e s command args) as [s' [[x t] b]].
  destruct b; [reflexivity|]. apply IH.
Qed.

Lemma answers_length s cs : snd (after s cs) = false -> List.length (answers e s cs) = List.length cs.
Proof.
  revert s. induction cs as [|[command args] cs IH]; intros s; [reflexivity|].
  cbn [after answers]. destruct (run_command e s command args) as [s' [[x t] b]].
  destruct b; [discriminate|]. intros H. simpl. rewrite IH by exact H. reflexivity.
Qed.

Definition transcript (cs : list (bytes * list bytes)) : bytes :=
  List.concat (map (fun c => command_line (fst c) (snd c) ++ [char_lf]) cs).

Definition frames (as_ : list (bool * bytes)) : bytes :=
  List.concat (map (fun a => framed (fst a) None (snd a)) as_).

Lemma run_session_transcript s cs :
  Forall (fun c => transmissible (fst c) (snd c)) cs ->
  run_session e s (transcript cs) = (fst (after s cs), frames (answers e s cs), Ok (snd (after s cs))).
Proof.
  intros F. revert s. induction F as [|[command args] cs T F IH]; intros s; [reflexivity|].
  unfold transcript. cbn [map List.concat fst snd]. rewrite run_session_line.
  2:{ apply command_line_no_lf. destruct T as (T & _). exact T. }
  rewrite (handle_line_reads e s _ None command args) by (apply transmissible_reads; exact T).
  cbn [after answers]. destruct (run_command e s command args) as [s' [[x t] b]].
  destruct b.
  - unfold frames. cbn [map List.concat fst snd]. rewrite app_nil_r. reflexivity.
  - fold (transcript cs). rewrite IH. reflexivity.
Qed.

(** ** Reading responses *)

Lemma pipe_readline_line eof u rest : ~ In char_lf u ->
  pipe_readline eof ((u ++ [char_lf]) ++ rest) = Some (u ++ [char_lf], rest).
Proof.
  intros N. unfold pipe_readline. rewrite readline_line by exact N.
  rewrite rev_app_distr. reflexivity.
Qed.

(** Splitting at the first newline. *)
Lemma first_lf t : ~ In char_lf t \/ exists u v, t = (u ++ [char_lf]) ++ v /\ ~ In char_lf u.
Proof.
  destruct (readline t) as [l r] eqn:E. apply readline_spec in E. destruct E as (-> & [(u & -> & N)|[-> N]]).
  - right. eauto.
  - left. rewrite app_nil_r. exact N.
Qed.

Lemma ends_with_lf_app u : ends_with_lf (u ++ [char_lf]) = true.
Proof. unfold ends_with_lf. rewrite rev_app_distr. reflexivity. Qed.

Lemma filter_plain t : Forall (fun c => c = char_lf \/ (32 <= ord c /\ ord c <> 127)) t ->
  filter (fun c => negb (is_response_control c)) t = t.
Proof.
  intros F. apply filter_id. eapply Forall_impl; [|exact F]. intros c H.
  assert (is_response_control c = false) as ->; [|reflexivity]. apply not_response_control. destruct H as [H|H]; [left; exact H|right; right; exact H].
Qed.

Lemma strip_nonempty c r : is_space c = false -> bytes_eqb (strip (c :: r)) [] = false.
Proof.
  intros H. destruct (bytes_eqb_spec (strip (c :: r)) []) as [E|]; auto. exfalso.
  unfold strip in E. cbn [lstrip] in E. rewrite H in E.
  assert (lstrip (rev (c :: r)) = []) as K.
  { destruct (lstrip (rev (c :: r))) as [|x y]; [reflexivity|]. simpl in E. destruct (rev y); discriminate. }
  assert (forall l, lstrip l = [] -> Forall (fun x => is_space x = true) l) as Q.
  { induction l as [|x l IHl]; [constructor|]. simpl. destruct (is_space x) eqn:X; [auto|discriminate]. }
  apply Q in K. rewrite Forall_forall in K. specialize (K c). rewrite K in H; [discriminate|].
  apply in_rev. rewrite rev_involutive. left. reflexivity.
Qed.

(** A response text that ends at the first blank line. *)
Definition body (t : bytes) : Prop :=
  t <> [] /\ starts_lf t = false /\ has2 t = false /\ ends_ok t /\
  Forall (fun c => c = char_lf \/ (32 <= ord c /\ ord c <> 127)) t.

Lemma has2_app u v : has2 (u ++ v) = false -> has2 u = false /\ has2 v = false.
Proof.
  induction u as [|a u IH]; intros H; [split; [reflexivity|exact H]|].
  cbn [app] in H. rewrite has2_cons in H |- *. apply orb_false_iff in H. destruct H as [H1 H2].
  destruct (IH H2) as [I1 I2]. split; [|exact I2]. rewrite I1, orb_false_r.
  destruct u as [|b u]; [apply andb_false_r|exact H1].
Qed.

Lemma ends_ok_app u v : v <> [] -> ends_ok (u ++ v) -> ends_ok v.
Proof. intros N H w c ->. apply (H (u ++ w) c). apply app_assoc. Qed.

Lemma body_tail u v : body ((u ++ [char_lf]) ++ v) -> u <> [] /\ body v.
Proof.
  intros (N & A & B & C & F). split.
  - intros ->. discriminate A.
  - assert (v <> []) as Nv.
    { intros ->. rewrite app_nil_r in C. specialize (C u char_lf eq_refl). discriminate. }
    split; [exact Nv|]. split.
    { destruct v as [|x v]; [congruence|]. simpl. destruct (ceqb_spec x char_lf) as [->|]; [|reflexivity].
      exfalso. rewrite <- app_assoc in B. apply has2_app in B. destruct B as [_ B]. discriminate. }
    split; [apply has2_app in B; apply B|]. split; [eapply ends_ok_app; eauto|].
    apply Forall_app in F. apply F.
Qed.

Lemma collect_body f eof seen peeked s t rest :
  body t -> peeked ++ s = t ++ char_lf :: char_lf :: rest -> ~ In char_lf peeked ->
  (List.length s < f)%nat ->
  (seen = true \/ exists c r, t = c :: r /\ is_space c = false) ->
  exists l ls, collect f eof seen peeked s = Some (l :: ls, rest) /\
    List.concat (l :: ls) = t ++ [char_lf] /\ (exists l', l = l' ++ [char_lf] /\ l' <> []).
Proof.
  remember (List.length t) as n eqn:L. revert t L f seen peeked s.
  induction n as [n IH] using lt_wf_ind. intros t L f seen peeked s Bt E Np Lf Sn.
  destruct f as [|f]; [lia|]. cbn [collect].
  (* the first line *)
  assert (exists u v, t ++ [char_lf] = (u ++ [char_lf]) ++ v /\ ~ In char_lf u /\ u <> [] /\
          ((v = [] /\ t = u) \/ (exists v', v = v' ++ [char_lf] /\ t = (u ++ [char_lf]) ++ v'))) as (u & v & Et & Nu & Nnil & Cases).
  { destruct (first_lf t) as [N|(u & v & -> & N)].
    - exists t, []. rewrite app_nil_r. split; [reflexivity|]. split; [exact N|]. split; [apply Bt|]. left. auto.
    - exists u, (v ++ [char_lf]). split; [rewrite <- app_assoc; reflexivity|]. split; [exact N|].
      apply body_tail in Bt. split; [apply Bt|]. right. exists v. auto. }
  assert (peeked ++ s = (u ++ [char_lf]) ++ v ++ char_lf :: rest) as E2.
  { rewrite E. change (char_lf :: char_lf :: rest) with ([char_lf] ++ char_lf :: rest).
    rewrite app_assoc, Et, <- app_assoc. reflexivity. }
  assert (exists s0, s = (s0 ++ [char_lf]) ++ v ++ char_lf :: rest /\ peeked ++ s0 = u) as (s0 & Es & Eu).
  { clear - E2 Np Nu. revert u Nu E2. induction peeked as [|p peeked IHp]; intros u Nu E2.
    - exists u. split; [exact E2|reflexivity].
    - destruct u as [|x u].
      + simpl in E2. injection E2 as E2 _. exfalso. apply Np. left. exact E2.
      + simpl in E2. injection E2 as -> E2. destruct (IHp) with (u := u) as (s0 & A & B).
        * intros K. apply Np. right. exact K.
        * intros K. apply Nu. right. exact K.
        * exact E2.
        * exists s0. split; [exact A|]. simpl. rewrite B. reflexivity. }
  rewrite Es, pipe_readline_line.
  2:{ intros K. apply Nu. rewrite <- Eu. apply in_or_app. right. exact K. }
  assert (peeked ++ s0 ++ [char_lf] = u ++ [char_lf]) as -> by (rewrite app_assoc, Eu; reflexivity).
  assert (Forall (fun c => c = char_lf \/ (32 <= ord c /\ ord c <> 127)) (u ++ [char_lf])) as Fu.
  { apply Forall_app. split; [|constructor; [left; reflexivity|constructor]].
    destruct Bt as (_ & _ & _ & _ & F). destruct Cases as [[_ ->]|(v' & _ & ->)]; auto.
    apply Forall_app in F. destruct F as [F _]. apply Forall_app in F. apply F. }
  rewrite filter_plain by exact Fu. cbv zeta.
  assert (negb seen && bytes_eqb (strip (u ++ [char_lf])) [] = false) as ->.
  { destruct Sn as [->|(c & r & Q & Sp)]; [reflexivity|].
    destruct u as [|x u]; [congruence|].
    assert (x = c) as -> by (destruct Cases as [[_ K]|(v' & _ & K)]; rewrite K in Q; simpl in Q; injection Q; auto).
    cbn [app]. rewrite strip_nonempty by exact Sp. apply andb_false_r. }
  assert (bytes_eqb (u ++ [char_lf]) [char_lf] = false) as ->.
  { destruct (bytes_eqb_spec (u ++ [char_lf]) [char_lf]) as [K|]; auto.
    destruct u as [|x [|y u]]; [congruence|discriminate K|discriminate K]. }
  rewrite ends_with_lf_app.
  destruct Cases as [[-> ->]|(v' & -> & Et')].
  - (* last line *)
    cbn [app]. destruct f as [|f].
    { subst s. rewrite !app_length in Lf. simpl in Lf. lia. }
    cbn [collect]. change (char_lf :: rest) with (([] ++ [char_lf]) ++ rest).
    rewrite pipe_readline_line by (intros []). cbn [app].
    change (filter (fun c => negb (is_response_control c)) [char_lf]) with [char_lf].
    cbn [negb andb]. rewrite bytes_eqb_refl.
    exists (u ++ [char_lf]), []. split; [reflexivity|]. split; [simpl; rewrite app_nil_r; reflexivity|].
    exists u. auto.
  - subst t. pose proof (body_tail _ _ Bt) as [_ Bv].
    destruct (IH (List.length v')) with (t := v') (f := f) (seen := true) (peeked := @nil ascii)
      (s := (v' ++ [char_lf]) ++ char_lf :: rest) as (l & ls & Q1 & Q2 & Q3).
    + subst n. rewrite !app_length. simpl. lia.
    + reflexivity.
    + exact Bv.
    + cbn [app]. rewrite <- app_assoc. reflexivity.
    + intros [].
    + subst s. rewrite !app_length in *. simpl in *. lia.
    + left. reflexivity.
    + rewrite Q1. exists (u ++ [char_lf]), (l :: ls). split; [reflexivity|].
      split; [|exists u; auto]. cbn [List.concat] in Q2 |- *. rewrite Q2, <- !app_assoc. reflexivity.
Qed.

Lemma lstrip_blank_app a b : (exists c, In c a /\ is_blank c = false) ->
  lstrip_blank (a ++ b) = lstrip_blank a ++ b.
Proof.
  intros (c & I & B). induction a as [|x a IH]; [destruct I|]. cbn [app lstrip_blank].
  destruct (is_blank x) eqn:X; [|reflexivity]. apply IH. destruct I as [->|I]; [congruence|exact I].
Qed.

Lemma lstrip_blank_suffix a : exists u, a = u ++ lstrip_blank a.
Proof.
  induction a as [|x a [u IH]]; [exists []; reflexivity|]. cbn [lstrip_blank].
  destruct (is_blank x); [|exists []; reflexivity]. exists (x :: u). simpl. congruence.
Qed.

Lemma framed_body b t : neat t ->
  exists c sep, (c = "="%char \/ c = "?"%char) /\ b = ceqb c "?"%char /\ (sep = [] \/ sep = [char_sp]) /\
    framed b None t = (c :: sep ++ t) ++ [char_lf; char_lf] /\ body (c :: sep ++ t) /\ (t = [] -> sep = []).
Proof.
  intros N. pose proof (neat_has2 t N) as H2. destruct N as (F & _ & E).
  set (c := if b then "?"%char else "="%char).
  exists c, (match t with [] => [] | _ => [char_sp] end).
  assert (is_space c = false) as Sc by (unfold c; destruct b; reflexivity).
  assert (ceqb c char_lf = false) as Lc by (unfold c; destruct b; reflexivity).
  assert (32 <= ord c /\ ord c <> 127) as Oc by (unfold c; destruct b; vm_compute; split; congruence).
  split; [unfold c; destruct b; auto|]. split; [unfold c; destruct b; reflexivity|].
  split; [destruct t; auto|]. split.
  { unfold framed. fold c. destruct t as [|x t]; [reflexivity|]. cbn [app]. reflexivity. }
  split; [|intros ->; reflexivity].
  split; [discriminate|]. split; [exact Lc|]. split.
  { rewrite has2_cons, Lc. cbn [andb orb]. destruct t as [|x t]; [reflexivity|].
    cbn [app]. rewrite has2_cons. cbn [andb]. exact H2. }
  split.
  { destruct t as [|x t]; [intros u d Q|].
    - destruct u as [|y [|z u]]; simpl in Q; [injection Q as <-; exact Sc|discriminate|discriminate].
    - intros u d Q. change (c :: [char_sp] ++ x :: t) with ([c; char_sp] ++ x :: t) in Q.
      destruct (exists_last (l := x :: t)) as (w & z & W); [discriminate|]. rewrite W in Q.
      rewrite app_assoc in Q. apply app_inj_tail in Q. destruct Q as [_ <-]. apply (E w z W). }
  constructor; [right; exact Oc|]. apply Forall_app. split; [|exact F].
  destruct t; constructor; [|constructor]. right. vm_compute. split; congruence.
Qed.

Lemma ends_ok_suffix u v : v <> [] -> ends_ok (u ++ v) -> ends_ok v.
Proof. apply ends_ok_app. Qed.

Lemma interpret_body c sep t l ls :
  (c = "="%char \/ c = "?"%char) -> (sep = [] \/ sep = [char_sp]) -> neat t -> (t = [] -> sep = []) ->
  List.concat (l :: ls) = (c :: sep ++ t) ++ [char_lf] ->
  (exists l', l = l' ++ [char_lf] /\ l' <> []) ->
  interpret_lines (l :: ls) = Reply (ceqb c "?"%char) (lstrip_blank t).
Proof.
  intros Hc Hs N Ht E (l' & -> & Nl). destruct l' as [|x l']; [congruence|].
  cbn [List.concat app] in E. injection E as -> E. cbn [interpret_lines app].
  assert (ceqb c "?"%char || ceqb c "="%char = true) as -> by (destruct Hc as [-> | ->]; reflexivity).
  f_equal. cbn [List.concat].
  assert (lstrip_blank (l' ++ [char_lf]) ++ List.concat ls = lstrip_blank (sep ++ t ++ [char_lf])) as ->.
  { rewrite <- lstrip_blank_app.
    - f_equal. rewrite E, <- app_assoc. reflexivity.
    - exists char_lf. split; [apply in_or_app; right; left; reflexivity|reflexivity]. }
  assert (lstrip_blank (sep ++ t ++ [char_lf]) = lstrip_blank (t ++ [char_lf])) as ->.
  { destruct Hs as [-> | ->]; reflexivity. }
  assert (lstrip_blank (t ++ [char_lf]) = lstrip_blank t ++ [char_lf] /\ ends_ok (lstrip_blank t)) as [-> Ok].
  { destruct t as [|y t']; [split; [reflexivity|intros [|? ?] ? ?; discriminate]|].
    destruct (exists_last (l := y :: t')) as (w & z & W); [discriminate|]. rewrite W in *.
    destruct N as (_ & _ & En).
    assert (is_space z = false) as Sz by (apply (En w z eq_refl)).
    assert (is_blank z = false) as Bz.
    { unfold is_space in Sz. unfold is_blank. lia. }
    rewrite lstrip_blank_app.
    2:{ exists z. split; [apply in_or_app; right; left; reflexivity|exact Bz]. }
    split; [reflexivity|].
    destruct (lstrip_blank_suffix (w ++ [z])) as (u & U).
    destruct (lstrip_blank (w ++ [z])) as [|q qs] eqn:Q; [intros [|? ?] ? ?; discriminate|].
    apply (ends_ok_suffix u); [discriminate|]. rewrite <- U. exact En. }
  rewrite rstrip_app_space by reflexivity. rewrite rstrip_id by exact Ok.
  apply tabs_id. destruct (lstrip_blank_suffix t) as (u & U).
  pose proof (neat_no_tabs t N) as F. rewrite U in F. apply Forall_app in F. apply F.
Qed.

Lemma framed_length b t : (0 < List.length (framed b None t))%nat.
Proof. unfold framed. simpl. lia. Qed.

(** Reading one response from the engine's output. *)
Lemma linebased_get_next s0 peeks c sent out eof b t rest :
  l_sent c = sent ->
  (exists s', run_session e s0 sent = (s', out, Ok eof)) ->
  skipn (l_read c) out = framed b None t ++ rest ->
  neat t ->
  linebased_get e s0 peeks c =
    (mkLine sent (List.length out - List.length rest) false, Reply b (lstrip_blank t)).
Proof.
  intros Es (s' & R) Sk N. unfold linebased_get. rewrite Es, R. cbv zeta.
  rewrite Sk.
  destruct (framed_body b t N) as (ch & sep & Hc & Hb & Hs & Fr & Bd & Ht).
  rewrite Fr.
  assert (exists peeked s, (if l_first c && peeks then peek eof (((ch :: sep ++ t) ++ [char_lf; char_lf]) ++ rest)
           else inl ([], ((ch :: sep ++ t) ++ [char_lf; char_lf]) ++ rest)) = inl (peeked, s) /\
           peeked ++ s = (ch :: sep ++ t) ++ char_lf :: char_lf :: rest /\ ~ In char_lf peeked) as (peeked & s & -> & P & Np).
  { destruct (l_first c && peeks).
    - exists [ch], ((sep ++ t) ++ [char_lf; char_lf] ++ rest).
      cbn [app peek]. destruct Hc as [-> | ->]; (split; [|split; [|intros [K|[]]; discriminate]]);
        rewrite <- ?app_assoc; reflexivity.
    - exists [], (((ch :: sep ++ t) ++ [char_lf; char_lf]) ++ rest). split; [reflexivity|].
      split; [|intros []]. rewrite <- app_assoc. reflexivity. }
  destruct (collect_body (Datatypes.S (List.length s)) eof false peeked s (ch :: sep ++ t) rest) as (l & ls & C & Q & L); auto.
  { right. exists ch, (sep ++ t). split; [reflexivity|]. destruct Hc as [-> | ->]; reflexivity. }
  rewrite C. f_equal. rewrite Hb. eapply interpret_body; eauto.
Qed.

(** Reading after the engine has gone. *)
Lemma linebased_get_closed s0 peeks c sent out :
  l_sent c = sent ->
  (exists s', run_session e s0 sent = (s', out, Ok true)) ->
  skipn (l_read c) out = [] -> (l_read c <= List.length out)%nat ->
  exists c', linebased_get e s0 peeks c = (c', Fails Channel_closed) /\
    l_sent c' = sent /\ skipn (l_read c') out = [] /\ (l_read c' <= List.length out)%nat.
Proof.
  intros Es (s' & R) Sk Rb. unfold linebased_get. rewrite Es, R. cbv zeta. rewrite Sk.
  destruct (l_first c && peeks); cbn [peek].
  - eexists. split; [reflexivity|]. split; [reflexivity|]. split; [exact Sk|exact Rb].
  - eexists. split; [reflexivity|]. split; [reflexivity|]. cbn [l_read].
    replace (List.length out - List.length (@nil ascii))%nat with (List.length out) by (simpl; lia).
    split; [apply skipn_all|lia].
Qed.

(** ** Conversations *)

Definition stripped (a : bool * bytes) : bool * bytes := (fst a, lstrip_blank (snd a)).

(** The state of the line channel after [k] replies, [cs] having been received. *)
Definition line_inv (s0 : S) (c : linebased) (cs : list (bytes * list bytes)) (k : nat) : Prop :=
  l_sent c = transcript cs /\
  skipn (l_read c) (frames (answers e s0 cs)) = frames (skipn k (answers e s0 cs)).

Lemma transcript_snoc cs c : transcript (cs ++ [c]) = transcript cs ++ command_line (fst c) (snd c) ++ [char_lf].
Proof. unfold transcript. rewrite map_app, concat_app. simpl. rewrite app_nil_r. reflexivity. Qed.

Lemma frames_app a b : frames (a ++ b) = frames a ++ frames b.
Proof. unfold frames. rewrite map_app, concat_app. reflexivity. Qed.

Lemma skipn_app_le {A} n (l m : list A) : (n <= List.length l)%nat -> skipn n (l ++ m) = skipn n l ++ m.
Proof.
  intros H. rewrite skipn_app. replace (n - List.length l)%nat with O by lia. reflexivity.
Qed.

Lemma skipn_next {A} k (l : list A) x r : skipn k l = x :: r -> skipn (Datatypes.S k) l = r.
Proof.
  revert l. induction k as [|k IH]; intros l H; [simpl in H; subst l; reflexivity|].
  destruct l as [|y l]; [discriminate|]. simpl in H. apply IH in H. exact H.
Qed.

Lemma frames_nil a : frames a = [] -> a = [].
Proof. destruct a as [|x a]; [reflexivity|]. unfold frames. simpl. discriminate. Qed.

(** Everything already read is really there. *)
Definition read_bound (c : linebased) (s0 : S) (cs : list (bytes * list bytes)) : Prop :=
  (l_read c <= List.length (frames (answers e s0 cs)))%nat.

Theorem linebased_conversation s0 peeks ops : forall c cs k n,
  line_inv s0 c cs k -> read_bound c s0 cs ->
  Forall (fun c => transmissible (fst c) (snd c)) (cs ++ commands_sent ops) ->
  Forall (fun a => neat (snd a)) (answers e s0 (cs ++ commands_sent ops)) ->
  (snd (after s0 cs) = false -> (k + n = List.length cs)%nat) ->
  well_ordered n ops ->
  replies (run_linebased e peeks s0 c ops) =
  expected (gets ops) (skipn k (map stripped (answers e s0 (cs ++ commands_sent ops)))).
Proof.
  induction ops as [|o ops IH]; intros c cs k n Inv Rb F N Pend W; [reflexivity|].
  pose proof Inv as (I1 & I2).
  assert (Forall (fun c => transmissible (fst c) (snd c)) cs) as Fcs by (apply Forall_app in F; apply F).
  pose proof (run_session_transcript s0 cs Fcs) as RS.
  destruct o as [command args broken|].
  - cbn [run_linebased commands_sent gets filter]. cbn [commands_sent] in F, N.
    unfold linebased_send.
    assert (transmissible command args) as T.
    { rewrite Forall_forall in F. apply (F (command, args)). apply in_or_app. right. left. reflexivity. }
    rewrite transmissible_sendable by exact T. cbn [negb]. rewrite I1, RS. cbn [snd].
    destruct (snd (after s0 cs)) eqn:Ended.
    + (* the engine has ended the session *)
      assert (forall more, answers e s0 (cs ++ more) = answers e s0 cs) as Stop.
      { intros more. rewrite answers_app, Ended, app_nil_r. reflexivity. }
      rewrite Stop in N |- *.
      destruct broken; cbn [andb].
      * cbn [replies]. specialize (IH c cs k (Datatypes.S n)).
        rewrite Stop in IH. apply IH; auto; [|intros; congruence].
        apply Forall_app in F. apply Forall_app. split; [apply F|]. destruct F as [_ F]. inversion F; auto.
      * cbn [replies]. specialize (IH (mkLine (transcript cs ++ join [char_sp] (command :: args) ++ [char_lf]) (l_read c) (l_first c))
          (cs ++ [(command, args)]) k (Datatypes.S n)).
        rewrite <- app_assoc in IH. cbn [app] in IH. rewrite !Stop in IH. apply IH; auto.
        { split; cbn [l_sent l_read]; [rewrite transcript_snoc; reflexivity|rewrite Stop; exact I2]. }
        { unfold read_bound. rewrite Stop. exact Rb. }
        { rewrite after_app, Ended. intros; congruence. }
    + cbn [andb replies]. specialize (IH (mkLine (transcript cs ++ join [char_sp] (command :: args) ++ [char_lf]) (l_read c) (l_first c))
          (cs ++ [(command, args)]) k (Datatypes.S n)).
      rewrite <- app_assoc in IH. cbn [app] in IH. apply IH; auto.
      { split; cbn [l_sent l_read]; [rewrite transcript_snoc; reflexivity|].
        rewrite answers_app, Ended, frames_app, skipn_app_le by exact Rb.
        rewrite I2. rewrite skipn_app_le.
        - rewrite frames_app. reflexivity.
        - rewrite answers_length by exact Ended. pose proof (Pend eq_refl). lia. }
      { unfold read_bound in *. cbn [l_read]. rewrite answers_app, frames_app, app_length. lia. }
      { intros _. rewrite app_length. pose proof (Pend eq_refl). simpl. lia. }
  - cbn [run_linebased commands_sent gets filter]. cbn [commands_sent] in F, N.
    cbn [well_ordered] in W. destruct n as [|n]; [destruct W|].
    destruct (skipn k (answers e s0 cs)) as [|[b t] todo] eqn:Sk.
    + (* nothing more to come *)
      assert (snd (after s0 cs) = true) as Ended.
      { destruct (snd (after s0 cs)) eqn:Q; [reflexivity|]. pose proof (Pend eq_refl) as K.
        pose proof (answers_length s0 cs Q) as L.
        assert (List.length (skipn k (answers e s0 cs)) = 0%nat) as Z by (rewrite Sk; reflexivity).
        rewrite skipn_length in Z. lia. }
      assert (forall more, answers e s0 (cs ++ more) = answers e s0 cs) as Stop.
      { intros more. rewrite answers_app, Ended, app_nil_r. reflexivity. }
      rewrite Stop in N |- *. rewrite skipn_map, Sk. cbn [map].
      destruct (linebased_get_closed s0 peeks c (transcript cs) (frames (answers e s0 cs))) as (c' & G & Es & Sk' & Rb').
      * exact I1.
      * rewrite RS, Ended. eauto.
      * exact I2.
      * exact Rb.
      * rewrite G. cbn [replies].
        change (gets (Get :: ops)) with (Datatypes.S (gets ops)). cbn [expected]. f_equal.
        specialize (IH c' cs k n). rewrite Stop, skipn_map, Sk in IH. apply IH; auto.
        { split; [exact Es|]. rewrite Sk', Sk. reflexivity. }
        { intros; congruence. }
    + assert (answers e s0 cs = firstn k (answers e s0 cs) ++ (b, t) :: todo) as Sp.
      { rewrite <- Sk. symmetry. apply firstn_skipn. }
      assert (neat t) as Nt.
      { rewrite answers_app in N. apply Forall_app in N. destruct N as [N _]. rewrite Sp in N.
        apply Forall_app in N. destruct N as [_ N]. inversion N; auto. }
      rewrite (linebased_get_next s0 peeks c (transcript cs) (frames (answers e s0 cs)) (snd (after s0 cs)) b t (frames todo)).
      2: exact I1. 2: rewrite RS; eauto. 2: exact I2. 2: exact Nt.
      cbn [replies].
      change (gets (Get :: ops)) with (Datatypes.S (gets ops)).
      assert (k < List.length (answers e s0 cs))%nat as Lk.
      { destruct (le_lt_dec (List.length (answers e s0 cs)) k) as [L|L]; [|exact L].
        rewrite skipn_all2 in Sk by exact L. discriminate. }
      assert (skipn (Datatypes.S k) (answers e s0 cs) = todo) as Sk1.
      { apply (skipn_next _ _ (b, t)). exact Sk. }
      assert (List.length (frames todo) <= List.length (frames (answers e s0 cs)))%nat as Lt.
      { rewrite Sp, frames_app, app_length. unfold frames at 3. cbn [map List.concat]. rewrite app_length.
        fold (frames todo). lia. }
      assert (skipn k (map stripped (answers e s0 (cs ++ commands_sent ops))) =
              stripped (b, t) :: skipn (Datatypes.S k) (map stripped (answers e s0 (cs ++ commands_sent ops)))) as ->.
      { rewrite !skipn_map, answers_app, !skipn_app_le by lia. rewrite Sk, Sk1. reflexivity. }
      cbn [expected stripped fst snd]. f_equal.
      apply (IH _ cs (Datatypes.S k) n); auto.
      * split; [reflexivity|]. cbn [l_read]. rewrite Sk1.
        assert (exists pre, frames (answers e s0 cs) = pre ++ frames todo) as (pre & P).
        { rewrite Sp, frames_app. unfold frames at 2. cbn [map List.concat]. fold (frames todo).
          rewrite app_assoc. eauto. }
        rewrite P, app_length. replace (List.length pre + List.length (frames todo) - List.length (frames todo))%nat with (List.length pre) by lia.
        rewrite skipn_app, skipn_all, Nat.sub_diag. reflexivity.
      * unfold read_bound. cbn [l_read]. lia.
      * intros Q. pose proof (Pend Q). lia.
Qed.

Lemma linebased_correct s0 peeks ops :
  Forall (fun c => transmissible (fst c) (snd c)) (commands_sent ops) ->
  Forall (fun a => neat (snd a)) (answers e s0 (commands_sent ops)) ->
  well_ordered O ops ->
  replies (run_linebased e peeks s0 new_linebased ops) =
  expected (gets ops) (map (fun a => (fst a, lstrip_blank (snd a))) (answers e s0 (commands_sent ops))).
Proof.
  intros F N W.
  apply (linebased_conversation s0 peeks ops new_linebased [] O O); auto.
  - split; reflexivity.
  - unfold read_bound. simpl. lia.
Qed.

(** The in-process channel. *)
Lemma internal_conversation ops : forall c n,
  (i_ended c = false -> List.length (i_outstanding c) = n) ->
  Forall (fun c => sendable (fst c) (snd c) = true) (commands_sent ops) ->
  well_ordered n ops ->
  replies (run_internal e c ops) =
  expected (gets ops) (if i_ended c then [] else answers e (i_state c) (i_outstanding c ++ commands_sent ops)).
Proof.
  induction ops as [|o ops IH]; intros c n L F W; [reflexivity|]. destruct o as [command args broken|].
  - cbn [run_internal commands_sent gets filter]. cbn [commands_sent] in F. inversion F as [|? ? F1 F2]; subst.
    cbn [fst snd] in F1. unfold internal_send. rewrite F1. cbn [negb]. cbn [well_ordered] in W.
    destruct (i_ended c) eqn:Ed; cbn [replies].
    + rewrite (IH c (Datatypes.S n)); auto; [|intros; congruence]. rewrite Ed. reflexivity.
    + rewrite (IH _ (Datatypes.S n)); auto.
      * cbn [i_ended i_state i_outstanding]. rewrite <- app_assoc. reflexivity.
      * cbn [i_outstanding]. intros _. rewrite app_length, (L eq_refl). simpl. lia.
  - cbn [run_internal commands_sent]. cbn [commands_sent] in F. cbn [well_ordered] in W. destruct n as [|n]; [destruct W|].
    change (gets (Get :: ops)) with (Datatypes.S (gets ops)). unfold internal_get.
    destruct (i_ended c) eqn:Ed; cbn [replies expected].
    + f_equal. rewrite (IH c n); auto; [|intros; congruence]. rewrite Ed. reflexivity.
    + destruct (i_outstanding c) as [|[command args] rest] eqn:Q.
      { specialize (L eq_refl). discriminate. }
      cbn [app answers]. destruct (run_command e (i_state c) command args) as [s' [[x t] b]].
      cbn [replies expected]. f_equal.
      rewrite (IH _ n); auto.
      * cbn [i_ended i_state i_outstanding]. destruct b; reflexivity.
      * cbn [i_outstanding]. intros _. specialize (L eq_refl). simpl in L. lia.
Qed.

Lemma internal_correct s0 ops :
  Forall (fun c => sendable (fst c) (snd c) = true) (commands_sent ops) ->
  well_ordered O ops ->
  replies (run_internal e (new_internal s0) ops) =
  expected (gets ops) (answers e s0 (commands_sent ops)).
Proof. intros F W. apply (internal_conversation ops (new_internal s0) O); auto. Qed.

End Engine.
