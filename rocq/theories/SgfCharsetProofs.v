From Verif Require Import Base Bytes PyStr BoardSpec BoardModel SgfGrammarSpec SgfGrammarModel
  SgfGrammarProofs SgfTextProofs CommonModel CommonProofs DiagramProofs SgfPropsModel SgfPropsSpec
  SgfPropsProofs SgfValueSpec SgfValueProofs SgfTreeModel SgfCharsetModel SgfCharsetSpec.

(** * Spelling *)

Definition fits_enc (e : encoding) (u : list Z) : Prop := Forall valid_cp u /\ below (char_limit e) u.

Lemma valid_below_utf8 u : Forall valid_cp u -> below (char_limit UTF_8) u.
Proof. apply Forall_impl. unfold valid_cp. simpl. lia. Qed.

Lemma limit_256 e : e <> UTF_8 -> char_limit e <= 256.
Proof. destruct e; simpl; intros; [congruence|lia|lia]. Qed.
Lemma limit_128 e : 128 <= char_limit e.
Proof. destruct e; simpl; lia. Qed.

Lemma spells_enc e u s : spells e u s <-> fits_enc e u /\ s = enc_bytes e u.
Proof.
  unfold fits_enc. assert (forall e', e' <> UTF_8 ->
    (Forall2 (fun z c => ord c = z /\ z < char_limit e') u s <->
     (Forall valid_cp u /\ below (char_limit e') u) /\ s = map chr u)) as G.
  { intros e' N. pose proof (limit_256 e' N) as L. split.
    - intros F. induction F as [|z c u s [O B] F IH]; [auto using Forall_nil; repeat split; constructor|].
      destruct IH as ((V & Bl) & ->). pose proof (ord_range c). unfold valid_cp.
      split; [split; constructor; auto; lia|]. cbn [map]. rewrite <- O, chr_ord. reflexivity.
    - intros ((V & B) & ->). induction u as [|z u IH]; [constructor|].
      apply Forall_cons_iff in V. apply Forall_cons_iff in B. destruct V as [Vz V], B as [Bz B].
      cbn [map]. constructor; [|apply IH; auto]. unfold valid_cp in Vz. rewrite ord_chr by lia. auto. }
  destruct e; cbn [spells enc_bytes].
  - split.
    + intros U. destruct (utf8_fun _ _ U) as [-> V]. pose proof (valid_below_utf8 _ V). auto.
    + intros ((V & _) & ->). apply utf8_encode_spec; auto.
  - apply G. discriminate.
  - apply G. discriminate.
Qed.

Lemma enc_app e u v : enc_bytes e (u ++ v) = enc_bytes e u ++ enc_bytes e v.
Proof. destruct e; cbn [enc_bytes]; [apply flat_map_app|apply map_app|apply map_app]. Qed.

Lemma enc_cons e z u : enc_bytes e (z :: u) = enc_bytes e [z] ++ enc_bytes e u.
Proof. apply (enc_app e [z] u). Qed.

Lemma enc_low e z u : 0 <= z < 128 -> enc_bytes e (z :: u) = chr z :: enc_bytes e u.
Proof.
  intros H. destruct e; try reflexivity. cbn [enc_bytes]. unfold utf8_encode. cbn [flat_map].
  rewrite utf8_char_low by auto. reflexivity.
Qed.

Lemma fits_app e u v : fits_enc e (u ++ v) <-> fits_enc e u /\ fits_enc e v.
Proof. unfold fits_enc, below. rewrite !Forall_app. tauto. Qed.

Lemma fits_cons e z u : fits_enc e (z :: u) <-> fits_enc e [z] /\ fits_enc e u.
Proof. apply (fits_app e [z] u). Qed.

Lemma fits_low e z : 0 <= z < 128 -> fits_enc e [z].
Proof.
  intros H. pose proof (limit_128 e). split; constructor; try constructor; unfold valid_cp; lia.
Qed.

Lemma fits_nil e : fits_enc e [].
Proof. split; constructor. Qed.

(** A character above 127 becomes one or more bytes above 127. *)
Lemma enc_high e z : fits_enc e [z] -> 128 <= z ->
  Forall (fun c => 128 <= ord c) (enc_bytes e [z]) /\ enc_bytes e [z] <> [].
Proof.
  intros (V & B) H. apply Forall_cons_iff in V. apply Forall_cons_iff in B. destruct V as [V _], B as [B _].
  destruct e; cbn [enc_bytes].
  - unfold utf8_encode. cbn [flat_map]. rewrite app_nil_r. apply utf8_char_high; auto.
  - cbn [map]. split; [|discriminate]. constructor; [|constructor]. simpl in B. rewrite ord_chr; lia.
  - cbn [map]. split; [|discriminate]. constructor; [|constructor]. simpl in B. rewrite ord_chr; lia.
Qed.

Lemma enc_inj e : forall u v, fits_enc e u -> fits_enc e v -> enc_bytes e u = enc_bytes e v -> u = v.
Proof.
  intros u v Fu Fv E. assert (forall x, fits_enc e x -> py_decode e (enc_bytes e x) = Ok x) as D.
  { intros x (V & B). destruct e; cbn [py_decode enc_bytes].
    - rewrite (utf8_decode_of x) by (apply utf8_encode_spec; auto). reflexivity.
    - destruct (below_valid_chr ISO_8859_1 x V B ltac:(discriminate)) as (A1 & A2 & A3). rewrite A2, A1. reflexivity.
    - destruct (below_valid_chr ASCII x V B ltac:(discriminate)) as (A1 & A2 & A3). rewrite A2, A1. reflexivity. }
  pose proof (D u Fu) as Du. rewrite E, (D v Fv) in Du. congruence.
Qed.

Lemma decode_spells e s u : py_decode e s = Ok u <-> spells e u s.
Proof.
  split.
  - intros D. apply spells_enc. destruct e; cbn [py_decode] in D.
    + destruct (utf8_decode s) as [u'|] eqn:E; [|discriminate]. injection D as <-.
      apply utf8_decode_sound with (n := List.length s) in E; auto.
      destruct (utf8_fun _ _ E) as [-> V]. pose proof (valid_below_utf8 _ V). split; [split|]; auto.
    + destruct (forallb _ s) eqn:E; [|discriminate]. injection D as <-. cbn [enc_limit] in E.
      rewrite forallb_forall in E. split; [|cbn [enc_bytes]; rewrite map_map; symmetry; rewrite <- (map_id s) at 2; apply map_ext; apply chr_ord].
      split; apply Forall_map; apply Forall_forall; intros c I; pose proof (ord_range c); unfold valid_cp; simpl; lia.
    + destruct (forallb _ s) eqn:E; [|discriminate]. injection D as <-. cbn [enc_limit] in E.
      rewrite forallb_forall in E. split; [|cbn [enc_bytes]; rewrite map_map; symmetry; rewrite <- (map_id s) at 2; apply map_ext; apply chr_ord].
      split; apply Forall_map; apply Forall_forall; intros c I; apply E in I; pose proof (ord_range c); unfold valid_cp; simpl; lia.
  - intros S. apply spells_enc in S. destruct S as ((V & B) & ->). destruct e; cbn [py_decode enc_bytes].
    + rewrite (utf8_decode_of u) by (apply utf8_encode_spec; auto). reflexivity.
    + destruct (below_valid_chr ISO_8859_1 u V B ltac:(discriminate)) as (A1 & A2 & A3). rewrite A2, A1. reflexivity.
    + destruct (below_valid_chr ASCII u V B ltac:(discriminate)) as (A1 & A2 & A3). rewrite A2, A1. reflexivity.
Qed.

Lemma encode_spells e s u : Forall valid_cp u -> (py_encode e u = Ok s <-> spells e u s).
Proof.
  intros V. rewrite spells_enc. unfold fits_enc. destruct e; cbn [py_encode enc_bytes].
  - pose proof (valid_below_utf8 _ V). split; [intros E; injection E as <-; auto|intros (_ & ->); auto].
  - destruct (forallb _ u) eqn:E.
    + split; [|intros (_ & ->); auto]. intros X. injection X as <-. split; [|auto]. split; auto.
      apply Forall_forall. rewrite forallb_forall in E. intros z I. apply E in I. simpl in *. lia.
    + split; [discriminate|]. intros ((_ & B) & _). exfalso. apply Bool.not_true_iff_false in E. apply E.
      apply forallb_forall. intros z I. unfold below in B. rewrite Forall_forall in B. apply B in I. simpl in *. lia.
  - destruct (forallb _ u) eqn:E.
    + split; [|intros (_ & ->); auto]. intros X. injection X as <-. split; [|auto]. split; auto.
      apply Forall_forall. rewrite forallb_forall in E. intros z I. apply E in I. simpl in *. lia.
    + split; [discriminate|]. intros ((_ & B) & _). exfalso. apply Bool.not_true_iff_false in E. apply E.
      apply forallb_forall. intros z I. unfold below in B. rewrite Forall_forall in B. apply B in I. simpl in *. lia.
Qed.

(** * Splitting at an ASCII character *)

Lemma enc_split e : forall u a c b, fits_enc e u -> ord c < 128 -> enc_bytes e u = a ++ c :: b ->
  exists u1 u2, u = u1 ++ ord c :: u2 /\ a = enc_bytes e u1 /\ b = enc_bytes e u2.
Proof.
  induction u as [|z u IH]; intros a c b F L E.
  - destruct a; destruct e; discriminate.
  - apply fits_cons in F. destruct F as [Fz F].
    assert (valid_cp z) as Vz by (destruct Fz as [V _]; inversion V; auto).
    destruct (Z.ltb_spec z 128) as [Lz|Lz].
    + unfold valid_cp in Vz. rewrite enc_low in E by lia. destruct a as [|a0 a].
      * cbn [app] in E. injection E as E1 E2. exists [], u. rewrite <- E1, ord_chr by lia.
        repeat split; auto. destruct e; reflexivity.
      * cbn [app] in E. injection E as E1 E2. destruct (IH _ _ _ F L E2) as (u1 & u2 & -> & -> & ->).
        exists (z :: u1), u2. repeat split; auto. rewrite enc_low by lia. congruence.
    + destruct (enc_high e z Fz Lz) as [H N]. rewrite enc_cons in E.
      assert (exists a', a = enc_bytes e [z] ++ a' /\ enc_bytes e u = a' ++ c :: b) as (a' & -> & E').
      { clear - E H L. revert a E. induction (enc_bytes e [z]) as [|h r IHr]; intros a E; [exists a; auto|].
        apply Forall_cons_iff in H. destruct H as [Hh H]. destruct a as [|a0 a].
        - cbn [app] in E. injection E as E1 E2. subst. lia.
        - cbn [app] in E. injection E as E1 E2. subst a0. destruct (IHr H a E2) as (a' & -> & E'). exists a'. auto. }
      destruct (IH _ _ _ F L E') as (u1 & u2 & -> & -> & ->).
      exists (z :: u1), u2. repeat split; auto. rewrite (enc_cons e z u1). reflexivity.
Qed.

Lemma recoded_enc e e' s s' : recoded e e' s s' <->
  exists u, fits_enc e u /\ fits_enc e' u /\ s = enc_bytes e u /\ s' = enc_bytes e' u.
Proof.
  split.
  - intros (u & A & B). apply spells_enc in A, B. exists u. tauto.
  - intros (u & A & B & -> & ->). exists u. rewrite !spells_enc. auto.
Qed.

Lemma recoded_split e e' a c b s' : ord c < 128 ->
  (recoded e e' (a ++ c :: b) s' <->
   exists a' b', s' = a' ++ c :: b' /\ recoded e e' a a' /\ recoded e e' b b').
Proof.
  intros L. pose proof (ord_range c) as R. split.
  - intros H. apply recoded_enc in H. destruct H as (u & F & F' & E & ->). symmetry in E.
    destruct (enc_split e u a c b F L E) as (u1 & u2 & -> & -> & ->).
    apply fits_app in F, F'. destruct F as [F1 F2], F' as [F1' F2']. apply fits_cons in F2, F2'.
    exists (enc_bytes e' u1), (enc_bytes e' u2).
    rewrite enc_app, enc_low by lia. rewrite chr_ord. split; auto. rewrite !recoded_enc.
    split; [exists u1|exists u2]; tauto.
  - intros (a' & b' & -> & Ra & Rb). apply recoded_enc in Ra, Rb.
    destruct Ra as (u1 & F1 & F1' & -> & ->), Rb as (u2 & F2 & F2' & -> & ->).
    apply recoded_enc. exists (u1 ++ ord c :: u2).
    rewrite !enc_app, !enc_low by lia. rewrite chr_ord, !fits_app, (fits_cons e), (fits_cons e').
    pose proof (fits_low e (ord c) ltac:(lia)). pose proof (fits_low e' (ord c) ltac:(lia)). tauto.
Qed.

Lemma recoded_nil e e' s' : recoded e e' [] s' <-> s' = [].
Proof.
  rewrite recoded_enc. split.
  - intros (u & F & _ & E & ->). assert (u = []) as ->; [|destruct e'; reflexivity].
    apply (enc_inj e); auto; [apply fits_nil|]. rewrite <- E. destruct e; reflexivity.
  - intros ->. exists []. repeat split; try apply fits_nil; try constructor; destruct e, e'; reflexivity.
Qed.

Lemma recoded_ascii e e' s s' : Forall (fun c => ord c < 128) s -> (recoded e e' s s' <-> s' = s).
Proof.
  intros H. revert s'. induction H as [|c s L H IH]; intros s'.
  - apply recoded_nil.
  - change (c :: s) with ([] ++ c :: s). rewrite recoded_split by auto. split.
    + intros (a' & b' & -> & Ra & Rb). apply recoded_nil in Ra. apply IH in Rb. subst. reflexivity.
    + intros ->. exists [], s. cbn [app]. split; auto. split; [apply recoded_nil; auto|apply IH; auto].
Qed.

Lemma recoded_fun e e' s a b : recoded e e' s a -> recoded e e' s b -> a = b.
Proof.
  intros A B. apply recoded_enc in A, B. destruct A as (u & F & _ & -> & ->), B as (v & G & _ & E & ->).
  apply enc_inj in E; auto. congruence.
Qed.

Lemma recoded_sym e e' s s' : recoded e e' s s' -> recoded e' e s' s.
Proof. intros (u & A & B). exists u. auto. Qed.

Lemma recoded_cat_ascii e e' a a' b b' : recoded e e' a a' -> recoded e e' b b' ->
  recoded e e' (a ++ b) (a' ++ b').
Proof.
  intros A B. apply recoded_enc in A, B. destruct A as (u & F & F' & -> & ->), B as (v & G & G' & -> & ->).
  apply recoded_enc. exists (u ++ v). rewrite !enc_app, !fits_app. tauto.
Qed.

(** * Raw values stay valid *)

Fixpoint gu (d : Z) (esc : bool) (u : list Z) : bool :=
  match u with
  | [] => negb esc
  | z :: r => if esc then gu d false r else if z =? 92 then gu d true r else if z =? d then false else gu d false r
  end.

Lemma ord_neq c d : c <> d -> (ord c =? ord d) = false.
Proof. intros N. apply Z.eqb_neq. intros E. apply N, ord_inj, E. Qed.

Lemma gu_value s : good_value s <-> gu 93 false (map ord s) = true.
Proof.
  split.
  - induction 1 as [|c v N1 N2 G IH|c v G IH]; [reflexivity| |].
    + cbn [map gu]. change 92 with (ord "\"%char). rewrite (ord_neq c "\"%char N1).
      pose proof (ord_neq c "]"%char N2) as X. change (ord "]"%char) with 93 in X. rewrite X. exact IH.
    + cbn [map gu]. exact IH.
  - assert (forall n s, (List.length s <= n)%nat -> gu 93 false (map ord s) = true -> good_value s) as G.
    { induction n as [|n IH]; intros [|c s0] L E; try (solve [constructor]); cbn [List.length] in L; [lia|].
      cbn [map gu] in E. destruct (Z.eqb_spec (ord c) 92) as [O|O].
      - assert (c = "\"%char) as -> by (apply ord_inj; exact O). destruct s0 as [|d s0]; [discriminate|].
        apply gv_escaped. cbn [map gu] in E. cbn [List.length] in L. apply IH; auto. lia.
      - destruct (Z.eqb_spec (ord c) 93) as [P|P]; [discriminate|]. apply gv_plain.
        + intros ->. apply O. reflexivity.
        + intros ->. apply P. reflexivity.
        + apply IH; auto. lia. }
    apply (G _ _ (le_n _)).
Qed.

Lemma gu_colon s : no_bare_colon s <-> gu 58 false (map ord s) = true.
Proof.
  split.
  - induction 1 as [|c v N1 N2 G IH|c v G IH]; [reflexivity| |].
    + cbn [map gu]. change 92 with (ord "\"%char). rewrite (ord_neq c "\"%char N1).
      pose proof (ord_neq c ":"%char N2) as X. change (ord ":"%char) with 58 in X. rewrite X. exact IH.
    + cbn [map gu]. exact IH.
  - assert (forall n s, (List.length s <= n)%nat -> gu 58 false (map ord s) = true -> no_bare_colon s) as G.
    { induction n as [|n IH]; intros [|c s0] L E; try (solve [constructor]); cbn [List.length] in L; [lia|].
      cbn [map gu] in E. destruct (Z.eqb_spec (ord c) 92) as [O|O].
      - assert (c = "\"%char) as -> by (apply ord_inj; exact O). destruct s0 as [|d s0]; [discriminate|].
        apply nc_escaped. cbn [map gu] in E. cbn [List.length] in L. apply IH; auto. lia.
      - destruct (Z.eqb_spec (ord c) 58) as [P|P]; [discriminate|]. apply nc_plain.
        + intros ->. apply O. reflexivity.
        + intros ->. apply P. reflexivity.
        + apply IH; auto. lia. }
    apply (G _ _ (le_n _)).
Qed.

Lemma gu_high d p r esc : d < 128 -> Forall (fun c => 128 <= ord c) p -> p <> [] ->
  gu d esc (map ord p ++ r) = gu d false r.
Proof.
  intros D H N. destruct p as [|c p]; [congruence|]. clear N. apply Forall_cons_iff in H. destruct H as [Hc H].
  assert (gu d esc (map ord (c :: p) ++ r) = gu d false (map ord p ++ r)) as ->.
  { cbn [map app gu]. destruct esc; auto. destruct (Z.eqb_spec (ord c) 92); [lia|]. destruct (Z.eqb_spec (ord c) d); [lia|]. reflexivity. }
  induction H as [|x p Hd H IH]; auto. cbn [map app gu].
  destruct (Z.eqb_spec (ord x) 92); [lia|]. destruct (Z.eqb_spec (ord x) d); [lia|]. exact IH.
Qed.

Lemma gu_enc d e u : d < 128 -> fits_enc e u -> forall esc, gu d esc (map ord (enc_bytes e u)) = gu d esc u.
Proof.
  intros D. induction u as [|z u IH]; intros F esc; [destruct e; reflexivity|].
  apply fits_cons in F. destruct F as [Fz F]. specialize (IH F).
  assert (valid_cp z) as Vz by (destruct Fz as [V _]; inversion V; auto). unfold valid_cp in Vz.
  destruct (Z.ltb_spec z 128) as [Lz|Lz].
  - rewrite enc_low by lia. cbn [map gu]. rewrite ord_chr by lia. rewrite !IH. reflexivity.
  - rewrite enc_cons, map_app. destruct (enc_high e z Fz Lz) as [H N]. rewrite gu_high by auto. rewrite IH.
    cbn [gu]. destruct esc; auto. destruct (Z.eqb_spec z 92); [lia|]. destruct (Z.eqb_spec z d); [lia|]. reflexivity.
Qed.

Lemma recoded_valid e e' s s' : recoded e e' s s' -> good_value s -> good_value s'.
Proof.
  intros R G. apply gu_value. apply gu_value in G. apply recoded_enc in R.
  destruct R as (u & F & F' & -> & ->). rewrite gu_enc in G by (auto; lia). rewrite gu_enc by (auto; lia). exact G.
Qed.

Lemma recoded_colon e e' s s' : recoded e e' s s' -> no_bare_colon s -> no_bare_colon s'.
Proof.
  intros R G. apply gu_colon. apply gu_colon in G. apply recoded_enc in R.
  destruct R as (u & F & F' & -> & ->). rewrite gu_enc in G by (auto; lia). rewrite gu_enc by (auto; lia). exact G.
Qed.

(** * Reading text *)

Lemma wnorm_enc u : Forall valid_cp u -> exists u', Forall valid_cp u' /\
  (forall e, fits_enc e u -> fits_enc e u' /\ wnorm (enc_bytes e u) = enc_bytes e u').
Proof.
  intros V. destruct (norm_unicode (List.length u) u (le_n _) V) as (u' & V' & B' & N1 & N2).
  exists u'. split; auto. intros e (_ & B). assert (33 <= char_limit e) as L by (pose proof (limit_128 e); lia).
  split; [split; auto|].
  eapply text_norm_fun; [apply (wnorm_spec _ _ (le_n _))|]. eapply norm_enc; eauto.
Qed.

Fixpoint utext (lf : Z) (esc : bool) (u : list Z) : list Z :=
  match u with
  | [] => []
  | z :: r =>
      if esc then (if z =? 10 then [] else [z]) ++ utext lf false r
      else if z =? 92 then utext lf true r
      else (if z =? 10 then [lf] else [z]) ++ utext lf false r
  end.

Lemma ctext_high lf p s esc : Forall (fun c => 128 <= ord c) p -> p <> [] ->
  ctext lf esc (p ++ s) = p ++ ctext lf false s.
Proof.
  assert (forall c, 128 <= ord c -> ceqb c char_lf = false /\ ceqb c char_bs = false) as Q.
  { intros c H. split; [destruct (ceqb_spec c char_lf) as [->|]|destruct (ceqb_spec c char_bs) as [->|]]; auto;
    match type of H with _ <= ord ?c => let v := eval vm_compute in (ord c) in change (ord c) with v in H end; lia. }
  intros H N. destruct p as [|c p]; [congruence|]. clear N. apply Forall_cons_iff in H. destruct H as [Hc H].
  destruct (Q c Hc) as [Q1 Q2]. cbn [app ctext]. rewrite Q1, Q2.
  assert (ctext lf false (p ++ s) = p ++ ctext lf false s) as ->.
  { induction H as [|d p Hd H IH]; auto. destruct (Q d Hd) as [R1 R2]. cbn [app ctext]. rewrite R1, R2. cbn [app]. congruence. }
  destruct esc; reflexivity.
Qed.

Lemma utext_fits e lf u : 0 <= lf < 128 -> fits_enc e u -> forall esc, fits_enc e (utext lf esc u).
Proof.
  intros L. induction u as [|z u IH]; intros F esc; [apply fits_nil|]. apply fits_cons in F. destruct F as [Fz F].
  cbn [utext]. pose proof (fits_low e lf L). pose proof (fits_nil e). destruct esc; [|destruct (z =? 92)].
  - apply fits_app. split; [destruct (z =? 10); auto|auto].
  - auto.
  - apply fits_app. split; [destruct (z =? 10); auto|auto].
Qed.

Lemma ctext_enc e lf u : 0 <= lf < 128 -> fits_enc e u -> forall esc,
  ctext [chr lf] esc (enc_bytes e u) = enc_bytes e (utext lf esc u).
Proof.
  intros L. induction u as [|z u IH]; intros F esc; [destruct e; reflexivity|].
  apply fits_cons in F. destruct F as [Fz F]. specialize (IH F).
  assert (valid_cp z) as Vz by (destruct Fz as [V _]; inversion V; auto). unfold valid_cp in Vz.
  destruct (Z.ltb_spec z 128) as [Lz|Lz].
  - rewrite enc_low by lia. cbn [ctext utext].
    assert (ceqb (chr z) char_lf = (z =? 10)) as ->.
    { destruct (ceqb_spec (chr z) char_lf) as [E|N].
      - apply (f_equal ord) in E. rewrite ord_chr in E by lia. change (ord char_lf) with 10 in E. subst; reflexivity.
      - destruct (Z.eqb_spec z 10) as [->|]; [exfalso; apply N; reflexivity|reflexivity]. }
    assert (ceqb (chr z) char_bs = (z =? 92)) as ->.
    { destruct (ceqb_spec (chr z) char_bs) as [E|N].
      - apply (f_equal ord) in E. rewrite ord_chr in E by lia. change (ord char_bs) with 92 in E. subst; reflexivity.
      - destruct (Z.eqb_spec z 92) as [->|]; [exfalso; apply N; reflexivity|reflexivity]. }
    destruct esc; [|destruct (z =? 92)].
    + rewrite enc_app, IH. destruct (z =? 10); [destruct e; reflexivity|]. rewrite enc_low by lia.
      replace (enc_bytes e []) with (@nil ascii) by (destruct e; reflexivity). reflexivity.
    + apply IH.
    + rewrite enc_app, IH. destruct (z =? 10); rewrite enc_low by lia;
      replace (enc_bytes e []) with (@nil ascii) by (destruct e; reflexivity); reflexivity.
  - destruct (enc_high e z Fz Lz) as [H N]. rewrite enc_cons, ctext_high, IH by auto.
    cbn [utext]. destruct (Z.eqb_spec z 92); [lia|]. destruct (Z.eqb_spec z 10); [lia|].
    destruct esc; rewrite enc_app; reflexivity.
Qed.

(** Text and SimpleText read the same in any encoding. *)
Lemma text_recoded e e' n s s' : recoded e e' s s' ->
  exists v, interpret_text s (mkCtx n e) = Ok v /\ interpret_text s' (mkCtx n e') = Ok v.
Proof.
  intros R. apply recoded_enc in R. destruct R as (u & F & F' & -> & ->).
  destruct (wnorm_enc u (proj1 F)) as (u' & V' & W). destruct (W e F) as [Fu' E], (W e' F') as [Gu' E'].
  exists (utf8_encode (utext 10 false u')). unfold interpret_text. cbn [c_encoding].
  rewrite !text_value_chars, E, E'. change [char_lf] with [chr 10].
  rewrite !ctext_enc by (auto; lia).
  pose proof (utext_fits e 10 u' ltac:(lia) Fu' false) as [A1 A2]. pose proof (utext_fits e' 10 u' ltac:(lia) Gu' false) as [B1 B2].
  split; apply transcode_enc; auto.
Qed.

Lemma simpletext_recoded e e' n s s' : recoded e e' s s' ->
  exists v, interpret_simpletext s (mkCtx n e) = Ok v /\ interpret_simpletext s' (mkCtx n e') = Ok v.
Proof.
  intros R. apply recoded_enc in R. destruct R as (u & F & F' & -> & ->).
  destruct (wnorm_enc u (proj1 F)) as (u' & V' & W). destruct (W e F) as [Fu' E], (W e' F') as [Gu' E'].
  exists (utf8_encode (utext 32 false u')). unfold interpret_simpletext. cbn [c_encoding].
  rewrite !simpletext_value_chars, E, E'. change [char_sp] with [chr 32].
  rewrite !ctext_enc by (auto; lia).
  pose proof (utext_fits e 32 u' ltac:(lia) Fu' false) as [A1 A2]. pose proof (utext_fits e' 32 u' ltac:(lia) Gu' false) as [B1 B2].
  split; apply transcode_enc; auto.
Qed.
