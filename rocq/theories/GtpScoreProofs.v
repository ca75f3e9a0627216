(** Proofs about the scoring of GTP games (C34). *)
From Coq Require Import QArith.
From Verif Require Import Base Bytes PyStr Dict BoardModel BoardSpec CommonModel SgfPropsModel GameplayModel GameplaySpec
  GameplayResultProofs GtpModel ControllerModel ControllerSpec GtpGameModel GtpGameSpec.
Open Scope Z_scope.

(** ** Upper-casing does not change numbers *)

Lemma upper_facts c :
  is_space (upper_char c) = is_space c /\ is_digit (upper_char c) = is_digit c /\
  lower_char (upper_char c) = lower_char c /\ (is_digit c = true -> upper_char c = c) /\
  ceqb (upper_char c) "-"%char = ceqb c "-"%char /\ ceqb (upper_char c) "+"%char = ceqb c "+"%char /\
  ceqb (upper_char c) "."%char = ceqb c "."%char /\
  (ceqb (upper_char c) "e"%char || ceqb (upper_char c) "E"%char = ceqb c "e"%char || ceqb c "E"%char).
Proof.
  pose proof (forall_chars (fun c =>
    Bool.eqb (is_space (upper_char c)) (is_space c) && Bool.eqb (is_digit (upper_char c)) (is_digit c) &&
    ceqb (lower_char (upper_char c)) (lower_char c) && (negb (is_digit c) || ceqb (upper_char c) c) &&
    Bool.eqb (ceqb (upper_char c) "-"%char) (ceqb c "-"%char) &&
    Bool.eqb (ceqb (upper_char c) "+"%char) (ceqb c "+"%char) &&
    Bool.eqb (ceqb (upper_char c) "."%char) (ceqb c "."%char) &&
    Bool.eqb (ceqb (upper_char c) "e"%char || ceqb (upper_char c) "E"%char) (ceqb c "e"%char || ceqb c "E"%char))
    ltac:(vm_compute; reflexivity) c) as H. cbv beta in H.
  rewrite !andb_true_iff, !eqb_true_iff in H. destruct H as (((((((A & B) & C) & D) & E) & F) & G) & I).
  repeat split; auto.
  - destruct (ceqb_spec (lower_char (upper_char c)) (lower_char c)); congruence.
  - intros X. rewrite X in D. cbn in D. destruct (ceqb_spec (upper_char c) c); congruence.
Qed.

Notation up := (map upper_char).

Lemma up_lstrip s : lstrip (up s) = up (lstrip s).
Proof.
  induction s as [|c s IH]; cbn; [reflexivity|].
  destruct (upper_facts c) as (A & _). rewrite A. destruct (is_space c); [exact IH|reflexivity].
Qed.
Lemma up_strip s : strip (up s) = up (strip s).
Proof. unfold strip. rewrite up_lstrip, <- map_rev, up_lstrip, <- map_rev. reflexivity. Qed.
Lemma up_sign s : parse_sign (up s) = (fst (parse_sign s), up (snd (parse_sign s))).
Proof.
  destruct s as [|c s]; cbn; [reflexivity|].
  destruct (upper_facts c) as (_ & _ & _ & _ & E & F & _). rewrite E, F.
  destruct (ceqb c "-"); [reflexivity|]. destruct (ceqb c "+"); reflexivity.
Qed.
Lemma up_digits s : forallb is_digit s = true -> up s = s.
Proof.
  induction s as [|c s IH]; cbn; [reflexivity|]. rewrite andb_true_iff. intros [D H].
  destruct (upper_facts c) as (_ & _ & _ & U & _). rewrite (U D), (IH H). reflexivity.
Qed.
Lemma up_all_digits s : forallb is_digit (up s) = forallb is_digit s.
Proof.
  induction s as [|c s IH]; cbn; [reflexivity|]. destruct (upper_facts c) as (_ & U & _). rewrite U, IH. reflexivity.
Qed.
Lemma span_is_digits s : forallb is_digit (fst (span_digits s)) = true.
Proof.
  induction s as [|c s IH]; cbn; [reflexivity|]. destruct (is_digit c) eqn:D; [|reflexivity].
  destruct (span_digits s) as [a b]. cbn in *. rewrite D, IH. reflexivity.
Qed.
Lemma up_span s : span_digits (up s) = (fst (span_digits s), up (snd (span_digits s))).
Proof.
  induction s as [|c s IH]; cbn; [reflexivity|].
  destruct (upper_facts c) as (_ & D & _ & U & _). rewrite D. destruct (is_digit c); [|reflexivity].
  rewrite IH. destruct (span_digits s) as [a b]. cbn. rewrite (U eq_refl). reflexivity.
Qed.
Lemma up_exponent s : parse_exponent (up s) = parse_exponent s.
Proof.
  destruct s as [|c s]; cbn; [reflexivity|].
  destruct (upper_facts c) as (_ & _ & _ & _ & _ & _ & _ & E). rewrite E.
  destruct (ceqb c "e" || ceqb c "E"); [|reflexivity].
  rewrite up_sign. destruct (parse_sign s) as [neg r]. cbn.
  destruct r as [|d r]; cbn [map]; [reflexivity|].
  change (upper_char d :: up r) with (up (d :: r)). rewrite up_all_digits.
  destruct (forallb is_digit (d :: r)) eqn:D; [|reflexivity]. rewrite (up_digits _ D). reflexivity.
Qed.

Lemma up_py_float s : py_float (up s) = py_float s.
Proof.
  unfold py_float. rewrite up_strip, up_sign. destruct (parse_sign (strip s)) as [neg r]. cbn [fst snd].
  rewrite up_span. pose proof (span_is_digits r). destruct (span_digits r) as [ip r1]. cbn [fst snd] in *.
  destruct r1 as [|c r1]; [reflexivity|]. cbn [map].
  destruct (upper_facts c) as (_ & _ & _ & _ & _ & _ & E & _). rewrite E.
  destruct (ceqb c ".").
  - rewrite up_span. destruct (span_digits r1) as [fp r2]. cbn [fst snd]. rewrite up_exponent. reflexivity.
  - change (upper_char c :: up r1) with (up (c :: r1)). rewrite up_exponent. reflexivity.
Qed.

Lemma up_float_of s : float_of (up s) = float_of s.
Proof.
  unfold float_of. rewrite up_strip, up_sign, up_py_float. destruct (parse_sign (strip s)) as [neg r]. cbn [fst snd].
  rewrite map_map.
  replace (map (fun x => lower_char (upper_char x)) r) with (map lower_char r); [reflexivity|].
  apply map_ext. intros c. destruct (upper_facts c) as (_ & _ & C & _). symmetry; exact C.
Qed.

(** ** One response *)

Definition margin_of (rest : bytes) : option pfloat :=
  match float_of rest with
  | None => None
  | Some f => if not_positive f then None else Some f
  end.

Lemma margin_text_of rest : margin_text rest (margin_of rest).
Proof.
  unfold margin_of. destruct (float_of rest) as [[x|neg|]|] eqn:F; cbn.
  - destruct (value_sign x) as (P & _ & _).
    destruct (fst x <=? 0) eqn:Z.
    + apply (mt_not_positive _ x F). rewrite <- P. lia.
    + apply (mt_number _ x F). apply P. lia.
  - destruct neg; [apply mt_minus_infinite|apply mt_infinite]; exact F.
  - apply mt_nan; exact F.
  - apply mt_bad; exact F.
Qed.
Lemma margin_text_det rest m : margin_text rest m -> m = margin_of rest.
Proof.
  unfold margin_of. intros H. inversion H as [s x F P|s F|s F|s x F P|s F|s F]; subst; rewrite F; cbn; try reflexivity.
  - destruct (value_sign x) as (Q & _). destruct (Z.leb_spec (fst x) 0); [|reflexivity]. apply Q in P. lia.
  - destruct (value_sign x) as (Q & _). destruct (Z.leb_spec (fst x) 0); [reflexivity|]. elim P. apply Q. lia.
Qed.

Lemma upper_letter l u : ceqb (upper_char l) u = true -> is_upper u = true -> l = u \/ l = lower_char u.
Proof.
  intros E U. assert (upper_char l = u) by (destruct (ceqb_spec (upper_char l) u); congruence). subst u. clear E.
  pose proof (forall_chars (fun l => negb (is_upper (upper_char l)) || ceqb l (upper_char l) || ceqb l (lower_char (upper_char l)))
    ltac:(vm_compute; reflexivity) l) as H. cbv beta in H. rewrite U in H. cbn in H.
  destruct (ceqb_spec l (upper_char l)); [auto|]. destruct (ceqb_spec l (lower_char (upper_char l))); [auto|discriminate].
Qed.

Lemma upper_zero s : up s = str "0" -> s = str "0".
Proof.
  destruct s as [|c [|d s]]; cbn; try discriminate. intros H. injection H as H.
  pose proof (forall_chars (fun l => negb (ceqb (upper_char l) "0") || ceqb l "0") ltac:(vm_compute; reflexivity) c) as Q.
  cbv beta in Q. rewrite H in Q. cbn in Q. destruct (ceqb_spec c "0"); [subst; reflexivity|discriminate].
Qed.

Lemma read_score_declares s w m : read_score s = Some (w, m) <-> declares s w m.
Proof.
  split.
  - unfold read_score. destruct (bytes_eqb_spec (up s) (str "0")) as [E|_].
    + rewrite (upper_zero s E). intros H; injection H as <- <-. constructor.
    + destruct s as [|l [|p rest]]; cbn [map]; try discriminate.
      destruct (upper_facts p) as (_ & _ & _ & _ & _ & F & _). rewrite F.
      destruct (ceqb_spec p "+"%char) as [->|]; [|discriminate].
      destruct (ceqb (upper_char l) "B") eqn:EB.
      * intros H. assert (w = Some Black /\ m = margin_of (up rest)) as [-> ->] by (split; unfold margin_of; congruence).
        unfold margin_of. rewrite up_float_of. apply (dc_win l Black); [|apply margin_text_of].
        exact (upper_letter l "B"%char EB eq_refl).
      * destruct (ceqb (upper_char l) "W") eqn:EW; [|discriminate].
        intros H. assert (w = Some White /\ m = margin_of (up rest)) as [-> ->] by (split; unfold margin_of; congruence).
        unfold margin_of. rewrite up_float_of. apply (dc_win l White); [|apply margin_text_of].
        exact (upper_letter l "W"%char EW eq_refl).
  - intros D. inversion D as [|l c rest m' NP MT]; subst; [reflexivity|].
    rewrite (margin_text_det _ _ MT). unfold read_score.
    destruct (bytes_eqb_spec (up (l :: "+"%char :: rest)) (str "0")) as [E|_]; [destruct l as [? ? ? ? ? ? ? ?]; discriminate E|].
    cbn [map]. change (upper_char "+") with "+"%char. cbn [ceqb]. rewrite up_float_of.
    destruct c; destruct NP as [D0|D0]; subst l; reflexivity.
Qed.

Lemma keep_some_opinions raw : opinions raw (keep_some (map read_score raw)).
Proof.
  induction raw as [|text raw IH]; cbn; [constructor|].
  destruct (read_score text) as [[w m]|] eqn:R.
  - constructor; [apply read_score_declares; exact R|exact IH].
  - constructor; [|exact IH]. intros w m D. apply read_score_declares in D. congruence.
Qed.

(** ** Combining *)

Lemma num_eqb_iff a b : num_eqb a b = true <-> (value a == value b)%Q.
Proof.
  unfold num_eqb, value. rewrite Z.eqb_eq. destruct a as [ma ka], b as [mb kb]. cbn [fst snd].
  pose proof (pow10_pos ka) as Pa. pose proof (pow10_pos kb) as Pb.
  assert (Qa : ~ (inject_Z (10 ^ Z.of_nat ka) == 0)%Q) by (unfold Qeq; cbn -[Z.pow]; lia).
  assert (Qb : ~ (inject_Z (10 ^ Z.of_nat kb) == 0)%Q) by (unfold Qeq; cbn -[Z.pow]; lia).
  split.
  - intros E. apply (f_equal inject_Z) in E. rewrite !inject_Z_mult in E.
    setoid_replace (inject_Z ma / inject_Z (10 ^ Z.of_nat ka))%Q
      with ((inject_Z ma * inject_Z (10 ^ Z.of_nat kb)) / (inject_Z (10 ^ Z.of_nat ka) * inject_Z (10 ^ Z.of_nat kb)))%Q by (field; auto).
    rewrite E. field; auto.
  - intros E. apply inject_Z_injective. rewrite !inject_Z_mult.
    setoid_replace (inject_Z ma * inject_Z (10 ^ Z.of_nat kb))%Q
      with ((inject_Z ma / inject_Z (10 ^ Z.of_nat ka)) * (inject_Z (10 ^ Z.of_nat ka) * inject_Z (10 ^ Z.of_nat kb)))%Q by (field; auto).
    rewrite E. field; auto.
Qed.

Lemma margin_eqb_iff a b : margin_eqb a b = true <-> same_margin a b.
Proof.
  destruct a as [[x|x|]|], b as [[y|y|]|]; cbn; try (split; [discriminate|contradiction]); try tauto.
  - apply num_eqb_iff.
  - apply eqb_true_iff.
Qed.
Lemma winner_eqb_iff a b : winner_eqb a b = true <-> a = b.
Proof. unfold winner_eqb, cell_eqb. destruct a as [[|]|], b as [[|]|]; cbn; split; congruence. Qed.

Lemma one_value_some {A} (eqb : A -> A -> bool) l x :
  one_value eqb l = Some x <-> exists rest, l = x :: rest /\ forall y, In y rest -> eqb x y = true.
Proof.
  destruct l as [|y l]; cbn.
  - split; [discriminate|]. intros (rest & E & _). discriminate E.
  - destruct (forallb (eqb y) l) eqn:F.
    + rewrite forallb_forall in F. split.
      * intros E; injection E as <-. exists l. auto.
      * intros (rest & E & _). congruence.
    + split; [discriminate|]. intros (rest & E & H). injection E as <- <-.
      assert (forallb (eqb y) l = true) by (apply forallb_forall; exact H). congruence.
Qed.

Lemma combine_fair l : fair_score l (combine_scores l).
Proof.
  unfold fair_score, combine_scores. split; [intros ->; reflexivity|]. split.
  - intros a b Ia Ib N. destruct (one_value winner_eqb (map fst l)) as [w|] eqn:O.
    + apply one_value_some in O. destruct O as (rest & E & H).
      assert (G : forall x, In x l -> fst x = w).
      { intros x I. apply (in_map fst) in I. rewrite E in I. destruct I as [I|I]; [congruence|].
        apply H, winner_eqb_iff in I. congruence. }
      elim N. rewrite (G a Ia), (G b Ib). reflexivity.
    + destruct l; [contradiction|reflexivity].
  - intros w m rest -> All. cbn [map fst snd].
    assert (O : one_value winner_eqb (w :: map fst rest) = Some w).
    { apply one_value_some. exists (map fst rest). split; [reflexivity|].
      intros y I. apply in_map_iff in I. destruct I as (a & <- & I). apply winner_eqb_iff. symmetry; auto. }
    rewrite O. cbn [gts_winner gts_margin gts_disagreed]. split; [reflexivity|]. split; [reflexivity|]. split.
    + intros S. assert (O2 : one_value margin_eqb (m :: map snd rest) = Some m).
      { apply one_value_some. exists (map snd rest). split; [reflexivity|].
        intros y I. apply in_map_iff in I. destruct I as (a & <- & I). apply margin_eqb_iff. auto. }
      rewrite O2. reflexivity.
    + intros a I N. destruct (one_value margin_eqb (m :: map snd rest)) as [m'|] eqn:O2; [|reflexivity].
      apply one_value_some in O2. destruct O2 as (r2 & E & H). injection E as <- <-.
      elim N. apply margin_eqb_iff, H. apply in_map. exact I.
Qed.

(** Every combined score makes sense. *)
Lemma declares_sensible s w m : declares s w m -> forall x, m = Some (FNum x) -> sensible w (Some x).
Proof.
  intros D x E. inversion D as [|l c rest m' NP MT]; subst.
  - injection H1 as <-. cbn. reflexivity.
  - inversion MT; subst. cbn. assumption.
Qed.

Lemma combine_sensible raw l : opinions raw l ->
  forall x, gts_margin (combine_scores l) = Some (FNum x) -> sensible (gts_winner (combine_scores l)) (Some x).
Proof.
  intros Op. assert (F : forall w m, In (w, m) l -> exists s, declares s w m).
  { induction Op as [|text w m rest l D Op IH|text rest l N Op IH]; intros w0 m0 I; [contradiction| |auto].
    destruct I as [I|I]; [injection I as <- <-; eauto|auto]. }
  intros x. unfold combine_scores. destruct (one_value winner_eqb (map fst l)) as [w|] eqn:O; [|discriminate].
  cbn [gts_margin gts_winner]. destruct (one_value margin_eqb (map snd l)) as [m|] eqn:O2; [|discriminate].
  intros ->. apply one_value_some in O, O2. destruct O as (r1 & E1 & _), O2 as (r2 & E2 & _).
  destruct l as [|[w0 m0] l]; [discriminate|]. injection E1 as -> _. injection E2 as -> _.
  destruct (F w (Some (FNum x)) (or_introl eq_refl)) as (s & D). exact (declares_sensible _ _ _ D x eq_refl).
Qed.
