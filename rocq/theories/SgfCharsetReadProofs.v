From Verif Require Import Base Bytes PyStr BoardSpec BoardModel SgfGrammarSpec SgfGrammarModel
  SgfGrammarProofs SgfTextProofs CommonModel CommonProofs DiagramProofs SgfPropsModel SgfPropsSpec
  SgfPropsProofs SgfValueSpec SgfValueProofs SgfTreeModel SgfCharsetModel SgfCharsetSpec SgfCharsetProofs.

(** * What reads as a number, a point, ... is ASCII *)

Lemma bytes_eqb_eq a b : bytes_eqb a b = true -> a = b.
Proof. destruct (bytes_eqb_spec a b); [auto|discriminate]. Qed.

Definition ascii_only (s : bytes) : Prop := Forall (fun c => ord c < 128) s.

Lemma recoded_ascii_only e e' s s' : recoded e e' s s' -> ascii_only s -> s' = s.
Proof. intros R A. eapply recoded_ascii; eauto. Qed.

Lemma lstrip_ascii s : ascii_only (lstrip s) -> ascii_only s.
Proof.
  induction s as [|c s IH]; [intros _; constructor|]. cbn [lstrip]. destruct (is_space c) eqn:E; [|auto].
  intros H. constructor; [unfold is_space in E; lia|exact (IH H)].
Qed.

Lemma rev_ascii s : ascii_only (rev s) <-> ascii_only s.
Proof.
  unfold ascii_only. rewrite !Forall_forall. split; intros H c I; apply H; [|apply in_rev]; auto.
  apply in_rev. rewrite rev_involutive. auto.
Qed.

Lemma strip_ascii s : ascii_only (strip s) -> ascii_only s.
Proof.
  unfold strip. intros H. apply (proj1 (rev_ascii _)) in H. apply lstrip_ascii in H. apply (proj1 (rev_ascii _)) in H. apply lstrip_ascii, H.
Qed.

Lemma digits_ascii s : forallb is_digit s = true -> ascii_only s.
Proof.
  intros H. apply Forall_forall. rewrite forallb_forall in H. intros c I. apply H in I. unfold is_digit in I. lia.
Qed.

Lemma eq_ascii s t : s = str t -> ascii_only (str t) -> ascii_only s.
Proof. intros ->. auto. Qed.

Ltac ascii_lit := repeat (apply Forall_cons; [vm_compute; reflexivity|]); apply Forall_nil.

Lemma py_int_ascii s n : py_int s = Ok n -> ascii_only s.
Proof.
  intros H. apply strip_ascii. unfold py_int in H. destruct (strip s) as [|c r]; [discriminate|].
  destruct (ceqb_spec c "-") as [->|N1]; [|destruct (ceqb_spec c "+") as [->|N2]].
  - constructor; [vm_compute; reflexivity|]. apply lstrip_ascii. destruct (lstrip r) as [|d r']; [constructor|].
    destruct (forallb is_digit (d :: r')) eqn:E; [|discriminate]. apply digits_ascii, E.
  - constructor; [vm_compute; reflexivity|]. apply lstrip_ascii. destruct (lstrip r) as [|d r']; [constructor|].
    destruct (forallb is_digit (d :: r')) eqn:E; [|discriminate]. apply digits_ascii, E.
  - destruct (forallb is_digit (c :: r)) eqn:E; [|discriminate]. apply digits_ascii, E.
Qed.

Lemma parse_sign_ascii s b r : parse_sign s = (b, r) -> ascii_only r -> ascii_only s.
Proof.
  destruct s as [|c s]; cbn [parse_sign]; [intros _ _; constructor|].
  destruct (ceqb_spec c "-") as [->|N1]; [|destruct (ceqb_spec c "+") as [->|N2]]; intros E A; injection E as _ <-; auto;
  (constructor; [vm_compute; reflexivity|auto]).
Qed.

Lemma span_digits_ascii s a b : span_digits s = (a, b) -> ascii_only b -> ascii_only s.
Proof.
  revert a b. induction s as [|c s IH]; intros a b; cbn [span_digits]; [intros E A; constructor|].
  destruct (is_digit c) eqn:D.
  - destruct (span_digits s) as [a' b'] eqn:E. intros X A. injection X as _ <-. constructor; [unfold is_digit in D; lia|exact (IH _ _ eq_refl A)].
  - intros X A. injection X as _ <-. exact A.
Qed.

Lemma parse_exponent_ascii s z : parse_exponent s = Some z -> ascii_only s.
Proof.
  destruct s as [|c s]; cbn [parse_exponent]; [constructor|].
  destruct (ceqb c "e" || ceqb c "E") eqn:E; [|discriminate].
  destruct (parse_sign s) as [neg r] eqn:P. destruct r as [|d r]; [discriminate|].
  destruct (forallb is_digit (d :: r)) eqn:D; [|discriminate]. intros _. constructor.
  - apply orb_true_iff in E. destruct E as [E|E]; [destruct (ceqb_spec c "e") as [->|]|destruct (ceqb_spec c "E") as [->|]]; try discriminate; vm_compute; reflexivity.
  - eapply parse_sign_ascii; eauto. apply digits_ascii, D.
Qed.

Lemma interpret_real_ascii s v : interpret_real s = Ok v -> ascii_only s.
Proof.
  unfold interpret_real, py_float. intros H. apply strip_ascii.
  destruct (parse_sign (strip s)) as [neg r] eqn:P. eapply parse_sign_ascii; eauto.
  destruct (span_digits r) as [ip r1] eqn:D. eapply span_digits_ascii; eauto.
  destruct r1 as [|c r'].
  - constructor.
  - destruct (ceqb_spec c ".") as [->|N].
    + destruct (span_digits r') as [fp r2] eqn:D2. constructor; [vm_compute; reflexivity|]. eapply span_digits_ascii; eauto.
      destruct (ip ++ fp); [discriminate|]. destruct (parse_exponent r2) as [z|] eqn:X; [|discriminate].
      eapply parse_exponent_ascii; eauto.
    + destruct (ip ++ []); [discriminate|]. destruct (parse_exponent (c :: r')) as [z|] eqn:X; [|discriminate].
      eapply parse_exponent_ascii; eauto.
Qed.

Lemma lower_ascii c d : lower_char c = d -> ord d < 128 -> ord c < 128.
Proof.
  intros <-. revert c. assert (forallb (fun c => negb (ord (lower_char c) <? 128) || (ord c <? 128)) all_chars = true) as A
    by (vm_compute; reflexivity).
  rewrite forallb_forall in A. intros c H. specialize (A c (all_chars_In c)).
  apply orb_true_iff in A. destruct A as [A|A]; [apply negb_true_iff in A; lia|lia].
Qed.

Lemma interpret_colour_ascii s c : interpret_colour s = Ok c -> ascii_only s.
Proof.
  unfold interpret_colour. intros H.
  assert (exists x, map lower_char s = [x] /\ ord x < 128) as (x & E & L).
  { destruct (bytes_eqb (map lower_char s) (str "b")) eqn:B.
    - apply bytes_eqb_eq in B. exists "b"%char. split; [exact B|vm_compute; reflexivity].
    - destruct (bytes_eqb (map lower_char s) (str "w")) eqn:B2; [|discriminate]. apply bytes_eqb_eq in B2.
      exists "w"%char. split; [exact B2|vm_compute; reflexivity]. }
  destruct s as [|a [|b s]]; try discriminate. cbn [map] in E. injection E as E. constructor; [|constructor].
  eapply lower_ascii; eauto.
Qed.

Lemma interpret_go_point_ascii s size m : size <= 26 -> interpret_go_point s size = Ok m -> ascii_only s.
Proof.
  intros L. unfold interpret_go_point.
  destruct (bytes_eqb s [] || bytes_eqb s (str "tt") && (size <=? 19)) eqn:B.
  - intros _. apply orb_true_iff in B. destruct B as [B|B].
    + apply bytes_eqb_eq in B. subst. constructor.
    + apply andb_true_iff in B. destruct B as [B _]. apply bytes_eqb_eq in B. subst. ascii_lit.
  - destruct s as [|a [|b [|c s]]]; try discriminate.
    destruct (negb _) eqn:N; [discriminate|]. intros _. apply negb_false_iff in N.
    constructor; [|constructor; [|constructor]]; lia.
Qed.

Lemma interpret_point_ascii s n e p : n <= 26 -> interpret_point s (mkCtx n e) = Ok p -> ascii_only s.
Proof.
  intros L. unfold interpret_point. cbn [c_size]. destruct (interpret_go_point s n) as [m|] eqn:E; [|discriminate].
  intros _. eapply interpret_go_point_ascii; eauto.
Qed.

Lemma point_enc s n e e' : interpret_point s (mkCtx n e) = interpret_point s (mkCtx n e').
Proof. reflexivity. Qed.

Lemma partition_join s a b : partition_colon s = (a, Some b) -> s = a ++ ":"%char :: b.
Proof.
  revert a b. induction s as [|c s IH]; intros a b; cbn [partition_colon]; [discriminate|].
  destruct (ceqb_spec c char_colon) as [->|N].
  - intros E. injection E as <- <-. reflexivity.
  - destruct (partition_colon s) as [a' b'] eqn:P. intros E. injection E as <- ->. rewrite (IH a' b eq_refl). reflexivity.
Qed.
Lemma partition_none s a : partition_colon s = (a, None) -> s = a.
Proof.
  revert a. induction s as [|c s IH]; intros a; cbn [partition_colon]; [congruence|].
  destruct (ceqb_spec c char_colon) as [->|N]; [discriminate|].
  destruct (partition_colon s) as [a' b'] eqn:P. intros E. injection E as <- ->. rewrite (IH a' eq_refl) at 1. reflexivity.
Qed.

(** * Composed values *)

Lemma compose_recoded e e' s s' : recoded e e' s s' ->
  exists a a' ob ob', parse_compose s = (a, ob) /\ parse_compose s' = (a', ob') /\ recoded e e' a a' /\
    match ob, ob' with None, None => True | Some b, Some b' => recoded e e' b b' | _, _ => False end.
Proof.
  intros R. unfold parse_compose.
  assert (forall e e' s s' a b, recoded e e' s s' -> split_compose s = Some (a, b) ->
    exists a' b', split_compose s' = Some (a', b') /\ recoded e e' a a' /\ recoded e e' b b') as G.
  { clear. intros e e' s s' a b R E. apply (split_inv (List.length s)) in E; auto. destruct E as [-> N].
    apply recoded_split in R; [|vm_compute; reflexivity]. destruct R as (a' & b' & -> & Ra & Rb).
    exists a', b'. split; auto. apply split_first. eapply recoded_colon; eauto. }
  destruct (split_compose s) as [[a b]|] eqn:E.
  - destruct (G _ _ _ _ _ _ R E) as (a' & b' & -> & Ra & Rb). exists a, a', (Some b), (Some b'). auto.
  - destruct (split_compose s') as [[a' b']|] eqn:E'.
    + destruct (G _ _ _ _ _ _ (recoded_sym _ _ _ _ R) E') as (a & b & X & _). congruence.
    + exists s, s', None, None. auto.
Qed.

(** * Every type reads the same in both encodings *)

Section Read.
Context (e e' : encoding) (n : Z) (Hn : n <= 26).

Lemma number_same s s' v : recoded e e' s s' -> interpret_number s = Ok v -> interpret_number s' = Ok v.
Proof. intros R E. rewrite (recoded_ascii_only _ _ _ _ R); auto. eapply py_int_ascii; eauto. Qed.

Lemma point_same s s' v : recoded e e' s s' -> interpret_point s (mkCtx n e) = Ok v -> interpret_point s' (mkCtx n e') = Ok v.
Proof. intros R E. rewrite (recoded_ascii_only _ _ _ _ R); auto. eapply interpret_point_ascii; eauto. Qed.

Lemma double_same s s' : recoded e e' s s' -> interpret_double s = interpret_double s'.
Proof.
  intros R. unfold interpret_double.
  assert (forall a b f f', recoded f f' a b -> bytes_eqb (strip a) (str "2") = true -> b = a) as G.
  { clear. intros a b f f' R E. apply bytes_eqb_eq in E. eapply recoded_ascii_only; eauto. apply strip_ascii.
    rewrite E. ascii_lit. }
  destruct (bytes_eqb (strip s) (str "2")) eqn:E1.
  - rewrite (G _ _ _ _ R E1), E1. reflexivity.
  - destruct (bytes_eqb (strip s') (str "2")) eqn:E2; auto.
    rewrite (G _ _ _ _ (recoded_sym _ _ _ _ R) E2), E2 in E1. discriminate.
Qed.

Lemma single_same t s s' v : recoded e e' s s' ->
  interpret_single t s (mkCtx n e) = Ok v -> interpret_single t s' (mkCtx n e') = Ok v.
Proof.
  intros R E. destruct t; cbn [interpret_single] in *; auto.
  - destruct (interpret_number s) as [z|] eqn:X; [|discriminate]. rewrite (number_same _ _ _ R X). exact E.
  - destruct (interpret_real s) as [[m k]|] eqn:X; [|discriminate].
    rewrite (recoded_ascii_only _ _ _ _ R) by (eapply interpret_real_ascii; eauto). rewrite X. exact E.
  - rewrite <- (double_same _ _ R). exact E.
  - destruct (interpret_colour s) as [c|] eqn:X; [|discriminate].
    rewrite (recoded_ascii_only _ _ _ _ R) by (eapply interpret_colour_ascii; eauto). rewrite X. exact E.
  - destruct (simpletext_recoded _ _ n _ _ R) as (x & A & B). rewrite A in E. rewrite B. exact E.
  - destruct (text_recoded _ _ n _ _ R) as (x & A & B). rewrite A in E. rewrite B. exact E.
  - destruct (interpret_point s (mkCtx n e)) as [p|] eqn:X; [|discriminate]. rewrite (point_same _ _ _ R X). exact E.
  - cbn [c_size] in *. destruct (interpret_go_point s n) as [m|] eqn:X; [|discriminate].
    rewrite (recoded_ascii_only _ _ _ _ R) by (eapply interpret_go_point_ascii; eauto). rewrite X. exact E.
  - unfold interpret_AP in *. destruct (compose_recoded _ _ _ _ R) as (a & a' & ob & ob' & P1 & P2 & Ra & Rb).
    rewrite P1 in E. rewrite P2. destruct (simpletext_recoded _ _ n _ _ Ra) as (x & A & B). rewrite A in E. rewrite B.
    cbn [bind] in *.
    assert (recoded e e' (match ob with None => [] | Some v => v end) (match ob' with None => [] | Some v => v end)) as R2.
    { destruct ob, ob'; try contradiction; auto. apply recoded_nil. reflexivity. }
    destruct (simpletext_recoded _ _ n _ _ R2) as (y & A2 & B2). rewrite A2 in E. rewrite B2. exact E.
  - unfold interpret_FG in *. destruct (bytes_eqb s []) eqn:Z0.
    + apply bytes_eqb_eq in Z0. subst s. apply recoded_nil in R. subst s'. exact E.
    + assert (bytes_eqb s' [] = false) as ->.
      { destruct (bytes_eqb s' []) eqn:Z1; auto. apply bytes_eqb_eq in Z1. subst s'. apply recoded_sym, recoded_nil in R. subst s. discriminate. }
      destruct (compose_recoded _ _ _ _ R) as (a & a' & ob & ob' & P1 & P2 & Ra & Rb). rewrite P1 in E. rewrite P2.
      destruct (py_int a) as [z|] eqn:X; [|discriminate].
      pose proof (number_same _ _ _ Ra X) as X'. unfold interpret_number in X'. rewrite X'.
      cbn [bind] in *. destruct ob as [b|], ob' as [b'|]; try contradiction; [|discriminate].
      destruct (simpletext_recoded _ _ n _ _ Rb) as (y & A2 & B2). rewrite A2 in E. rewrite B2. exact E.
Qed.

Lemma points_same l l' acc v : Forall2 (recoded e e') l l' ->
  point_list_loop l (mkCtx n e) acc = Ok v -> point_list_loop l' (mkCtx n e') acc = Ok v.
Proof.
  intros F. revert acc. induction F as [|s s' l l' R F IH]; intros acc E; auto.
  assert (s' = s) as ->.
  { eapply recoded_ascii_only; eauto. cbn [point_list_loop] in E. destruct (partition_colon s) as [p1 [p2|]] eqn:P.
    - apply partition_join in P. subst s.
      destruct (interpret_point p1 (mkCtx n e)) as [[a b]|] eqn:X1; [|discriminate]. cbn [bind] in E.
      destruct (interpret_point p2 (mkCtx n e)) as [[c d]|] eqn:X2; [|discriminate].
      apply Forall_app. split; [eapply interpret_point_ascii; eauto|]. constructor; [vm_compute; reflexivity|].
      eapply interpret_point_ascii; eauto.
    - apply partition_none in P. subst p1.
      destruct (interpret_point s (mkCtx n e)) as [p|] eqn:X1; [|discriminate]. eapply interpret_point_ascii; eauto. }
  cbn [point_list_loop] in *. destruct (partition_colon s) as [p1 [p2|]].
  - rewrite <- !(point_enc _ n e e'). destruct (interpret_point p1 (mkCtx n e)) as [[a b]|]; [|discriminate]. cbn [bind] in *.
    destruct (interpret_point p2 (mkCtx n e)) as [[c d]|]; [|discriminate]. cbn [bind] in *.
    destruct (negb _); [discriminate|]. apply IH, E.
  - rewrite <- (point_enc _ n e e'). destruct (interpret_point p1 (mkCtx n e)) as [p|]; [|discriminate]. cbn [bind] in *. apply IH, E.
Qed.

Lemma mapm_same {A} (f f' : bytes -> res A) l l' : Forall2 (recoded e e') l l' ->
  (forall s s' v, recoded e e' s s' -> f s = Ok v -> f' s' = Ok v) ->
  forall v, mapm f l = Ok v -> mapm f' l' = Ok v.
Proof.
  intros F H. induction F as [|s s' l l' R F IH]; intros v E; auto. cbn [mapm] in *.
  destruct (f s) as [b|] eqn:X; [|discriminate]. rewrite (H _ _ _ R X). cbn [bind] in *.
  destruct (mapm f l) as [bs|]; [|discriminate]. rewrite (IH _ eq_refl). exact E.
Qed.

Lemma list_same t l l' v : Forall2 (recoded e e') l l' ->
  interpret_list t l (mkCtx n e) = Ok v -> interpret_list t l' (mkCtx n e') = Ok v.
Proof.
  intros F E. destruct t; cbn [interpret_list] in *; auto.
  - unfold interpret_point_list in *. destruct (point_list_loop l (mkCtx n e) []) as [ps|] eqn:X; [|discriminate].
    rewrite (points_same _ _ _ _ F X). exact E.
  - unfold interpret_point_list in *. destruct (point_list_loop l (mkCtx n e) []) as [ps|] eqn:X; [|discriminate].
    rewrite (points_same _ _ _ _ F X). exact E.
  - unfold interpret_ARLN_list in *. destruct (mapm (fun s => interpret_arrow s (mkCtx n e)) l) as [ps|] eqn:X; [|discriminate].
    rewrite (mapm_same (fun s => interpret_arrow s (mkCtx n e)) (fun s => interpret_arrow s (mkCtx n e')) l l' F) with (v := ps); [exact E| |exact X].
    intros s s' w R Ew. unfold interpret_arrow in *.
    destruct (compose_recoded _ _ _ _ R) as (a & a' & ob & ob' & P1 & P2 & Ra & Rb). rewrite P1 in Ew. rewrite P2.
    destruct (interpret_point a (mkCtx n e)) as [p|] eqn:Y; [|discriminate]. rewrite (point_same _ _ _ Ra Y). cbn [bind] in *.
    destruct ob as [b|], ob' as [b'|]; try contradiction; [|discriminate].
    destruct (interpret_point b (mkCtx n e)) as [q|] eqn:Y2; [|discriminate]. rewrite (point_same _ _ _ Rb Y2). exact Ew.
  - unfold interpret_LB_list in *. destruct (mapm (fun s => interpret_label s (mkCtx n e)) l) as [ps|] eqn:X; [|discriminate].
    rewrite (mapm_same (fun s => interpret_label s (mkCtx n e)) (fun s => interpret_label s (mkCtx n e')) l l' F) with (v := ps); [exact E| |exact X].
    intros s s' w R Ew. unfold interpret_label in *.
    destruct (compose_recoded _ _ _ _ R) as (a & a' & ob & ob' & P1 & P2 & Ra & Rb). rewrite P1 in Ew. rewrite P2.
    destruct (interpret_point a (mkCtx n e)) as [p|] eqn:Y; [|discriminate]. rewrite (point_same _ _ _ Ra Y). cbn [bind] in *.
    destruct ob as [b|], ob' as [b'|]; try contradiction; [|discriminate].
    destruct (simpletext_recoded _ _ n _ _ Rb) as (y & A2 & B2). rewrite A2 in Ew. rewrite B2. exact Ew.
Qed.

Lemma as_type_same t l l' v : Forall2 (recoded e e') l l' ->
  interpret_as_type t l (mkCtx n e) = Ok v -> interpret_as_type t l' (mkCtx n e') = Ok v.
Proof.
  intros F E. unfold interpret_as_type in *. inversion F as [|s s' r r' R Fr Es Es']; subst; [discriminate|].
  destruct (uses_list t).
  - assert (Forall2 (recoded e e') (match s :: r with [[]] => [] | _ => s :: r end)
                                   (match s' :: r' with [[]] => [] | _ => s' :: r' end)) as F2.
    { destruct s as [|c s].
      - apply recoded_nil in R. subst s'. inversion Fr; subst; [constructor|]. auto.
      - destruct s' as [|c' s']; [apply recoded_sym, recoded_nil in R; discriminate|]. auto. }
    refine (list_same t _ _ v F2 _). exact E.
  - inversion Fr; subst; [|discriminate]. eapply single_same; eauto.
Qed.
End Read.

Lemma interpret_same e e' n types dflt k l l' v : n <= 26 -> Forall2 (recoded e e') l l' ->
  (interpret (mkPres (mkCtx n e) types dflt) k l = Ok v <->
   interpret (mkPres (mkCtx n e') types dflt) k l' = Ok v).
Proof.
  intros Hn F. assert (Forall2 (recoded e' e) l' l) as F'.
  { clear - F. induction F; constructor; auto. apply recoded_sym; auto. }
  unfold interpret. change (effective_type (mkPres (mkCtx n e') types dflt) k) with (effective_type (mkPres (mkCtx n e) types dflt) k).
  destruct (effective_type (mkPres (mkCtx n e) types dflt) k) as [t|]; cbn [bind pr_context]; [|split; discriminate].
  split; apply as_type_same; auto.
Qed.
