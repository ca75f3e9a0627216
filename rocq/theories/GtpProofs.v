(** Proofs about gtp_engine.py: command lines and responses. *)
From Verif Require Import Base Bytes PyStr Dict CommonModel SgfPropsModel GtpModel GtpSpec.

(** ** Characters *)

Lemma blank_iff c : is_blank c = true <-> blank c.
Proof.
  unfold is_blank, blank. rewrite orb_true_iff, !Z.eqb_eq. split.
  - intros [H|H]; [right|left]; apply ord_inj; exact H.
  - intros [->| ->]; [right|left]; reflexivity.
Qed.

Lemma not_blank_iff c : is_blank c = false <-> ~ blank c.
Proof. rewrite <- blank_iff. destruct (is_blank c); split; congruence. Qed.

Lemma control_iff c : is_control c = true <-> control c.
Proof.
  unfold is_control, control. pose proof (ord_range c).
  rewrite !orb_true_iff, andb_true_iff, !Z.leb_le, Z.eqb_eq. lia.
Qed.

Lemma not_control_iff c : is_control c = false <-> ~ control c.
Proof. rewrite <- control_iff. destruct (is_control c); split; congruence. Qed.

Lemma not_control_space c : is_control c = false -> is_space c = is_blank c.
Proof.
  unfold is_control, is_space, is_blank. intros H.
  rewrite !orb_false_iff in H. destruct H as [[H1 H2] H3].
  destruct (Z.eqb_spec (ord c) 9) as [->|N]; [reflexivity|].
  destruct (Z.eqb_spec (ord c) 32) as [->|N2]; [reflexivity|]. lia.
Qed.

(** ** Words of a line *)

Definition visible (line : bytes) : bytes := filter (fun c => negb (is_control c)) (before_hash line).

Lemma payload_visible line : payload line (visible line).
Proof.
  unfold visible. induction line as [|c r IH]; simpl; [constructor|].
  destruct (ceqb_spec c "#"%char) as [->|N]; [constructor|]. simpl.
  destruct (is_control c) eqn:E; simpl.
  - apply payload_control; auto. apply control_iff; auto.
  - apply payload_char; auto. apply not_control_iff; auto.
Qed.

Lemma payload_fun line t : payload line t -> t = visible line.
Proof.
  unfold visible. induction 1 as [|r|c r t C P IH|c r t N C P IH]; simpl; auto.
  - assert (ceqb c "#"%char = false) as ->.
    { destruct (ceqb_spec c "#"%char) as [->|]; auto. destruct C as [[? ?]|C]; discriminate || (vm_compute in *; congruence). }
    simpl. apply control_iff in C. rewrite C. simpl. auto.
  - destruct (ceqb_spec c "#"%char); [congruence|]. simpl.
    apply not_control_iff in C. rewrite C. simpl. congruence.
Qed.

Lemma visible_clean line : Forall (fun c => is_control c = false) (visible line).
Proof.
  apply Forall_forall. intros c I. apply filter_In in I. destruct I as [_ I].
  destruct (is_control c); auto; discriminate.
Qed.

Lemma spaced_total t : exists ws, spaced t ws.
Proof.
  induction t as [|c r IH]; [exists []; constructor; constructor|].
  destruct IH as [ws P]. destruct (is_blank c) eqn:B.
  - apply blank_iff in B. inversion P as [s F|pre w post ws' F N W E P']; subst.
    + exists []. constructor. constructor; auto.
    + exists (w :: ws'). change (c :: pre ++ w ++ post) with ((c :: pre) ++ w ++ post).
      constructor; auto.
  - apply not_blank_iff in B. inversion P as [s F|pre w post ws' F N W E P']; subst.
    + exists ([c] :: []). change (c :: r) with ([] ++ [c] ++ r). constructor; auto; try discriminate.
      intros x y ->. inversion F; auto.
    + destruct pre as [|p pre].
      * exists ((c :: w) :: ws'). change (c :: [] ++ w ++ post) with ([] ++ (c :: w) ++ post).
        constructor; auto. discriminate.
      * exists ([c] :: w :: ws').
        change (c :: (p :: pre) ++ w ++ post) with ([] ++ [c] ++ (p :: pre) ++ w ++ post).
        constructor; auto; try discriminate.
        { intros x y Q. injection Q as Q1 Q2. subst. inversion F; auto. }
Qed.

Lemma split_ws_blank s t : Forall blank s -> split_ws (s ++ t) = split_ws t.
Proof.
  induction 1 as [|c s B F IH]; simpl; auto.
  destruct B as [->| ->]; exact IH.
Qed.

Lemma split_ws_word w post :
  w <> [] -> Forall (fun c => is_space c = false) w ->
  (forall c r, post = c :: r -> is_space c = true) ->
  split_ws (w ++ post) = w :: split_ws post.
Proof.
  intros N F P. induction w as [|c w IH]; [congruence|].
  inversion F as [|? ? Fc Fw]; subst. clear F N.
  cbn [app split_ws]. rewrite Fc. destruct w as [|d w].
  - cbn [app]. destruct post as [|p post]; [reflexivity|].
    rewrite (P p post eq_refl). reflexivity.
  - cbn [app]. inversion Fw as [|? ? Fd Fw']; subst. rewrite Fd.
    cbn [app] in IH. rewrite IH by (congruence || auto). reflexivity.
Qed.

Lemma spaced_split t ws : Forall (fun c => is_control c = false) t -> spaced t ws -> split_ws t = ws.
Proof.
  intros C P. induction P as [s F|pre w post ws F N W E P IH].
  - rewrite <- (app_nil_r s). apply split_ws_blank with (t := []) in F. exact F.
  - rewrite !Forall_app in C. destruct C as (C1 & C2 & C3).
    rewrite split_ws_blank by auto. rewrite split_ws_word.
    + rewrite IH by auto. reflexivity.
    + auto.
    + rewrite Forall_forall in *. intros c I. rewrite not_control_space by auto.
      apply not_blank_iff. auto.
    + intros c r Ep. subst post. inversion C3; subst. rewrite not_control_space by auto.
      apply blank_iff. eapply E; eauto.
Qed.

Lemma normalise_blank_run b s t : Forall blank s -> s <> [] ->
  normalise_blanks b (s ++ t) = (if b then [] else [char_sp]) ++ normalise_blanks true t.
Proof.
  revert b. induction s as [|c s IH]; intros b F N; [congruence|].
  inversion F as [|? ? Bc Bs]; subst. cbn [app normalise_blanks].
  apply blank_iff in Bc. rewrite Bc. destruct s as [|d s]; [reflexivity|].
  rewrite IH by (auto || discriminate). destruct b; reflexivity.
Qed.

Lemma normalise_word b w t : w <> [] -> Forall (fun c => ~ blank c) w ->
  normalise_blanks b (w ++ t) = w ++ normalise_blanks false t.
Proof.
  revert b. induction w as [|c w IH]; intros b N F; [congruence|].
  inversion F as [|? ? Bc Bs]; subst. cbn [app normalise_blanks].
  apply not_blank_iff in Bc. rewrite Bc. destruct w as [|d w]; [reflexivity|].
  rewrite IH by (auto || discriminate). reflexivity.
Qed.

Lemma normalise_starts_blank b s : (forall c r, s = c :: r -> blank c) -> s <> [] -> b = false ->
  exists r, normalise_blanks b s = char_sp :: r.
Proof.
  intros H N ->. destruct s as [|c r]; [congruence|]. cbn [normalise_blanks].
  specialize (H c r eq_refl). apply blank_iff in H. rewrite H. eexists. reflexivity.
Qed.

Lemma spaced_blank_cons c t ws : blank c -> spaced t ws -> spaced (c :: t) ws.
Proof.
  intros B P. inversion P as [s F|pre w post ws' F N W E P']; subst.
  - constructor. constructor; auto.
  - change (c :: pre ++ w ++ post) with ((c :: pre) ++ w ++ post). constructor; auto.
Qed.

Lemma normalise_spaced t ws b : spaced t ws -> spaced (normalise_blanks b t) ws.
Proof.
  intros P. revert b. induction P as [s F|pre w post ws F N W E P IH]; intros b.
  - destruct s as [|c s]; [constructor; constructor|].
    rewrite <- (app_nil_r (c :: s)), normalise_blank_run by (auto || discriminate).
    constructor. destruct b; simpl; constructor; auto. left; reflexivity.
  - assert (forall b', spaced (normalise_blanks b' (w ++ post)) (w :: ws)) as K.
    { intros b'. rewrite normalise_word by auto.
      change (w ++ normalise_blanks false post) with ([] ++ w ++ normalise_blanks false post).
      constructor; auto. intros c r Q. destruct post as [|p post]; [discriminate|].
      destruct (normalise_starts_blank false (p :: post)) as (r' & R); auto; try discriminate.
      rewrite R in Q. injection Q as <- _. left. reflexivity. }
    destruct pre as [|c pre]; [apply K|].
    rewrite normalise_blank_run by (auto || discriminate).
    destruct b; simpl; [apply K|]. apply spaced_blank_cons; [left; reflexivity|apply K].
Qed.

Lemma normalise_clean b t : Forall (fun c => is_control c = false) t ->
  Forall (fun c => is_control c = false) (normalise_blanks b t).
Proof.
  revert b. induction t as [|c t IH]; intros b F; cbn [normalise_blanks]; [constructor|].
  inversion F; subst. destruct (is_blank c).
  - apply Forall_app. split; auto. destruct b; repeat constructor.
  - constructor; auto.
Qed.

Lemma line_words_split line ws : line_words line ws -> split_ws (preprocess_line line) = ws.
Proof.
  intros (t & P & Q). apply payload_fun in P. subst t.
  apply spaced_split; [apply normalise_clean, visible_clean|].
  apply normalise_spaced. exact Q.
Qed.

Lemma line_words_total line : exists ws, line_words line ws.
Proof.
  destruct (spaced_total (visible line)) as [ws P]. exists ws, (visible line).
  split; auto. apply payload_visible.
Qed.

Lemma spaced_nil_inv t : spaced t [] -> Forall blank t.
Proof. inversion 1; auto. Qed.

Lemma normalised_blank line ws : line_words line ws ->
  (bytes_eqb (preprocess_line line) [] || bytes_eqb (preprocess_line line) [char_sp] = true <-> ws = []).
Proof.
  intros W. split.
  - intros H. apply line_words_split in W. rewrite <- W.
    apply orb_true_iff in H. destruct H as [H|H];
      [destruct (bytes_eqb_spec (preprocess_line line) []) as [->|]
      |destruct (bytes_eqb_spec (preprocess_line line) [char_sp]) as [->|]]; try discriminate; reflexivity.
  - intros ->. destruct W as (t & P & Q). apply payload_fun in P. subst t.
    apply spaced_nil_inv in Q. unfold preprocess_line. fold (visible line).
    destruct (visible line) as [|c s]; [reflexivity|].
    rewrite <- (app_nil_r (c :: s)), normalise_blank_run by (auto || discriminate). reflexivity.
Qed.

(** ** Command ids *)

Lemma span_digits_spec s a b : span_digits s = (a, b) ->
  s = a ++ b /\ Forall (fun c => is_digit c = true) a /\ no_digit_first b.
Proof.
  revert a b. induction s as [|c s IH]; intros a b; simpl.
  - intros E. injection E as <- <-. split; [reflexivity|]. split; [constructor|]. intros ? ? ?; discriminate.
  - destruct (is_digit c) eqn:D.
    + destruct (span_digits s) as [a' b'] eqn:E. intros H. injection H as <- <-.
      destruct (IH a' b' eq_refl) as (I1 & I2 & I3). split; [simpl; congruence|]. split; auto.
    + intros H. injection H as <- <-. split; [reflexivity|]. split; [constructor|].
      intros x r Q. injection Q as <- _. exact D.
Qed.

Lemma span_digits_app a b : Forall (fun c => is_digit c = true) a -> no_digit_first b ->
  span_digits (a ++ b) = (a, b).
Proof.
  intros F N. induction a as [|c a IH]; simpl.
  - destruct b as [|c b]; [reflexivity|]. simpl. rewrite (N c b eq_refl). reflexivity.
  - inversion F; subst. match goal with H : is_digit c = true |- _ => rewrite H end.
    rewrite IH by auto. reflexivity.
Qed.

Lemma digit_not_minus c : is_digit c = true -> ceqb c "-"%char = false.
Proof. intros D. destruct (ceqb_spec c "-"%char) as [->|]; auto; discriminate. Qed.

Lemma match_id_number a b n : number a n -> no_digit_first b -> match_id (a ++ b) = Some (a, b).
Proof.
  intros H N. inversion H as [ds D F|ds D F]; subst.
  - destruct a as [|c ds]; [congruence|]. inversion F; subst.
    unfold match_id. cbn [app]. rewrite digit_not_minus by auto.
    change (c :: ds ++ b) with ((c :: ds) ++ b). rewrite span_digits_app by auto. reflexivity.
  - unfold match_id. cbn [app]. change (ceqb "-"%char "-"%char) with true. cbv iota.
    rewrite span_digits_app by auto. destruct ds; [congruence|]. reflexivity.
Qed.

Lemma match_id_some s a b : match_id s = Some (a, b) ->
  s = a ++ b /\ (exists n, number a n) /\ no_digit_first b.
Proof.
  unfold match_id. destruct s as [|c r]; [discriminate|].
  destruct (ceqb_spec c "-"%char) as [->|N].
  - destruct (span_digits r) as [ds rest] eqn:E. apply span_digits_spec in E. destruct E as (E & F & D).
    destruct ds as [|d ds]; [discriminate|]. intros H. injection H as <- <-. subst r.
    split; [reflexivity|]. split; auto. eexists. constructor; auto; discriminate.
  - destruct (span_digits (c :: r)) as [ds rest] eqn:E. apply span_digits_spec in E. destruct E as (E & F & D).
    destruct ds as [|d ds]; [discriminate|]. intros H. injection H as <- <-.
    split; [exact E|]. split; auto. eexists. constructor; auto; discriminate.
Qed.

Lemma number_extend a b n : number a n -> exists a' b' n', a ++ b = a' ++ b' /\ number a' n' /\ no_digit_first b'.
Proof.
  intros H. inversion H as [ds D F|ds D F]; subst.
  - destruct (span_digits b) as [x y] eqn:E. apply span_digits_spec in E. destruct E as (-> & Fx & N).
    exists (a ++ x), y, (digits_val (a ++ x)). split; [apply app_assoc|]. split; auto. constructor.
    + destruct a; [congruence|discriminate].
    + apply Forall_app; auto.
  - destruct (span_digits b) as [x y] eqn:E. apply span_digits_spec in E. destruct E as (-> & Fx & N).
    exists ("-"%char :: ds ++ x), y, (- digits_val (ds ++ x)). split; [simpl; rewrite <- app_assoc; reflexivity|].
    split; auto. constructor.
    + destruct ds; [congruence|discriminate].
    + apply Forall_app; auto.
Qed.

Lemma match_id_none s : match_id s = None <-> (forall a b n, s = a ++ b -> ~ number a n).
Proof.
  split.
  - intros H a b n -> Nm. destruct (number_extend a b n Nm) as (a' & b' & n' & E & Nm' & D).
    rewrite E, (match_id_number a' b' n') in H by auto. discriminate.
  - intros H. destruct (match_id s) as [[a b]|] eqn:E; auto.
    apply match_id_some in E. destruct E as (E & (n & Nm) & _). destruct (H a b n E Nm).
Qed.

Lemma Forall_forallb {A} (f : A -> bool) l : Forall (fun c => f c = true) l -> forallb f l = true.
Proof. rewrite forallb_forall, Forall_forall. auto. Qed.

Lemma number_int a n : number a n -> py_int a = Ok n.
Proof.
  intros H. inversion H as [ds D F|ds D F]; subst.
  - apply py_int_digits; auto. apply Forall_forallb; auto.
  - apply Forall_forallb in F. unfold py_int. rewrite strip_clean.
    + change (ceqb "-"%char "-"%char) with true. cbv iota.
      rewrite lstrip_nonspace.
      * destruct ds as [|d ds]; [congruence|]. rewrite F. reflexivity.
      * intros c r ->. simpl in F. apply andb_true_iff in F. apply digit_not_space. tauto.
    + cbn [forallb]. rewrite digits_no_space by auto. reflexivity.
Qed.

Lemma number_neg_iff a n : number a n -> (n <? 0) = true -> exists r, a = "-"%char :: r.
Proof.
  intros H L. inversion H as [ds D F|ds D F]; subst; eauto.
  exfalso. assert (0 <= digits_val a) as K; [|lia].
  clear -F. assert (forall acc, 0 <= acc -> 0 <= fold_left (fun acc c => acc * 10 + digit_val c) a acc) as K.
  { induction a as [|c a IH]; intros acc A; simpl; auto. inversion F; subst. apply IH; auto.
    unfold digit_val. match goal with H : is_digit c = true |- _ => unfold is_digit in H end. lia. }
  apply K. lia.
Qed.

(** ** parse_line and handle_line *)

Lemma parse_line_words line ws : line_words line ws ->
  parse_line (preprocess_line line) =
  match ws with
  | [] => Err IndexError
  | s :: rest =>
      match match_id s with
      | Some (id, command) =>
          let '(command, args) :=
            match command with
            | [] => match rest with [] => (None, []) | w :: ws => (Some w, ws) end
            | _ => (Some command, rest)
            end in
          do n <- py_int id; Ok (echoed id n, command, args)
      | None => Ok (None, Some s, rest)
      end
  end.
Proof.
  intros W. unfold parse_line. rewrite (line_words_split _ _ W). reflexivity.
Qed.

Section Engine.
Context {S : Type}.
Variable e : engine S.

Theorem handle_line_reads s line id command args :
  reads line id command args ->
  handle_line e s line =
  let '(s', (is_error, text, end_session)) := run_command e s command args in
  (s', Ok (Some (framed is_error id text), end_session)).
Proof.
  intros R.
  assert (exists ws, line_words line ws /\ ws <> [] /\
          parse_line (preprocess_line line) = Ok (id, Some command, args)) as (ws & W & N & P).
  { inversion R as [w a W N|num n c a W Nm Nc Nd|num n c a W Nm]; subst.
    - exists (command :: args). split; auto. split; [discriminate|].
      rewrite (parse_line_words _ _ W). cbv iota.
      destruct (match_id command) as [[x y]|] eqn:E; auto.
      exfalso. apply match_id_some in E. destruct E as (E & (n & Nm) & _). exact (N _ _ _ E Nm).
    - exists ((num ++ command) :: args). split; auto. split; [discriminate|].
      rewrite (parse_line_words _ _ W). cbv iota.
      rewrite (match_id_number _ _ _ Nm Nd). destruct command as [|c0 cr]; [congruence|].
      rewrite (number_int _ _ Nm). reflexivity.
    - exists (num :: command :: args). split; auto. split; [discriminate|].
      rewrite (parse_line_words _ _ W). cbv iota.
      pose proof (match_id_number num [] n Nm) as M. rewrite app_nil_r in M. rewrite M.
      + rewrite (number_int _ _ Nm). reflexivity.
      + intros ? ? ?; discriminate. }
  unfold handle_line.
  destruct (bytes_eqb (preprocess_line line) [] || bytes_eqb (preprocess_line line) [char_sp]) eqn:B.
  { apply (normalised_blank _ _ W) in B. congruence. }
  rewrite P. destruct (run_command e s command args) as [s' [[is_error text] end_session]].
  unfold framed. f_equal. f_equal. f_equal. f_equal.
  destruct is_error, id, text; cbn [app]; rewrite ?app_nil_r, <- ?app_assoc; reflexivity.
Qed.

Theorem handle_line_silent s line :
  (forall id command args, ~ reads line id command args) ->
  handle_line e s line = (s, Ok (None, false)).
Proof.
  intros R. destruct (line_words_total line) as [ws W]. unfold handle_line.
  destruct (bytes_eqb (preprocess_line line) [] || bytes_eqb (preprocess_line line) [char_sp]) eqn:B; auto.
  destruct ws as [|w rest].
  { assert (bytes_eqb (preprocess_line line) [] || bytes_eqb (preprocess_line line) [char_sp] = true) as K
      by (apply (normalised_blank _ _ W); reflexivity). congruence. }
  rewrite (parse_line_words _ _ W). cbv iota.
  destruct (match_id w) as [[x y]|] eqn:E.
  - apply match_id_some in E. destruct E as (-> & (n & Nm) & D).
    rewrite (number_int _ _ Nm). destruct y as [|c y].
    + rewrite app_nil_r in W. destruct rest as [|w2 rest]; [reflexivity|].
      exfalso. eapply R, reads_separate; eauto.
    + exfalso. eapply R, reads_joined; eauto. discriminate.
  - exfalso. eapply R, reads_plain; eauto. apply match_id_none; auto.
Qed.

End Engine.

(** A line is read in at most one way. *)
Lemma reads_fun line i c a i' c' a' : reads line i c a -> reads line i' c' a' -> i = i' /\ c = c' /\ a = a'.
Proof.
  intros R R'.
  pose (e := mkEngine (S := unit) [] false).
  assert (forall id command args, reads line id command args ->
          parse_line (preprocess_line line) = Ok (id, Some command, args)) as K.
  { clear. intros id command args R.
    inversion R as [w a W N|num n c a W Nm Nc Nd|num n c a W Nm]; subst;
      rewrite (parse_line_words _ _ W); cbv iota.
    - destruct (match_id command) as [[x y]|] eqn:E; auto.
      exfalso. apply match_id_some in E. destruct E as (E & (n & Nm) & _). exact (N _ _ _ E Nm).
    - rewrite (match_id_number _ _ _ Nm Nd). destruct command as [|c0 cr]; [congruence|].
      rewrite (number_int _ _ Nm). reflexivity.
    - pose proof (match_id_number num [] n Nm) as M. rewrite app_nil_r in M. rewrite M.
      + rewrite (number_int _ _ Nm). reflexivity.
      + intros ? ? ?; discriminate. }
  apply K in R. apply K in R'. rewrite R in R'. injection R' as -> -> ->. auto.
Qed.
