(** Proofs about the interpreters, settings and arguments (C44, C50, C51). *)
From Coq Require Import QArith Permutation Floats.SpecFloat.
From Verif Require Import Base Bytes PyStr Dict SgfPropsSpec SgfPropsModel SgfValueProofs SettingsModel SettingsSpec.
Open Scope Z_scope.

Lemma int_of_spec v z : int_of v = Some z <-> int_value v z.
Proof.
  split.
  - destruct v as [|b|z'| | | | | | | | | |]; cbn; try discriminate; intros E; injection E as <-; [destruct b; constructor|constructor].
  - destruct 1; reflexivity.
Qed.
Lemma int_of_none v : int_of v = None <-> forall z, ~ int_value v z.
Proof.
  split.
  - intros E z H. apply int_of_spec in H. congruence.
  - intros H. destruct (int_of v) as [z|] eqn:E; [|reflexivity]. apply int_of_spec in E. exfalso. exact (H z E).
Qed.
Lemma int_value_fun v z z' : int_value v z -> int_value v z' -> z = z'.
Proof. intros A B. apply int_of_spec in A, B. congruence. Qed.

Lemma bool_ok v r : interpret_bool v = Good r <-> r = v /\ exists b, v = VBool b.
Proof.
  split; [destruct v; cbn; try discriminate; intros E; injection E as <-; eauto|]. intros (-> & b & ->). reflexivity.
Qed.
Lemma int_ok v r : interpret_int v = Good r <-> r = v /\ exists z, int_value v z.
Proof.
  unfold interpret_int. split.
  - destruct (int_of v) as [z|] eqn:E; [|discriminate]. intros H. injection H as <-. split; [reflexivity|]. exists z. apply int_of_spec. exact E.
  - intros (-> & z & H). apply int_of_spec in H. rewrite H. reflexivity.
Qed.
Lemma positive_ok v r : interpret_positive_int v = Good r <-> r = v /\ exists z, int_value v z /\ 0 < z.
Proof.
  unfold interpret_positive_int. split.
  - destruct (int_of v) as [z|] eqn:E; [|discriminate]. destruct (Z.leb_spec z 0) as [L|L]; [discriminate|]. intros H. injection H as <-.
    split; [reflexivity|]. exists z. split; [apply int_of_spec; exact E|lia].
  - intros (-> & z & H & L). apply int_of_spec in H. rewrite H. destruct (Z.leb_spec z 0); [lia|reflexivity].
Qed.

(** ** Floats *)
Lemma digits_shift m k : digits2_pos (shift_pos k m) = (k + digits2_pos m)%positive.
Proof.
  unfold shift_pos. induction k as [|k IH] using Pos.peano_ind.
  - cbn [Pos.iter digits2_pos]. rewrite Pos.add_1_l. reflexivity.
  - rewrite Pos.iter_succ. cbn [digits2_pos]. rewrite IH. lia.
Qed.
Lemma shift_value k m : Zpos (shift_pos k m) = Zpos m * 2 ^ Zpos k.
Proof.
  unfold shift_pos. induction k as [|k IH] using Pos.peano_ind.
  - cbn. lia.
  - rewrite Pos.iter_succ, Pos2Z.inj_xO, IH, Pos2Z.inj_succ, Z.pow_succ_r by lia. lia.
Qed.
Lemma digits_bound p : 2 ^ (Zpos (digits2_pos p) - 1) <= Zpos p.
Proof.
  induction p as [p IH|p IH|]; cbn [digits2_pos]; [| |discriminate].
  - rewrite Pos2Z.inj_succ, (Pos2Z.inj_xI p). replace (Z.succ (Zpos (digits2_pos p)) - 1) with (Z.succ (Zpos (digits2_pos p) - 1)) by lia.
    rewrite Z.pow_succ_r by lia. lia.
  - rewrite Pos2Z.inj_succ, (Pos2Z.inj_xO p). replace (Z.succ (Zpos (digits2_pos p)) - 1) with (Z.succ (Zpos (digits2_pos p) - 1)) by lia.
    rewrite Z.pow_succ_r by lia. lia.
Qed.
Lemma digits_small p : Zpos p < 2 ^ 53 -> Zpos (digits2_pos p) <= 53.
Proof.
  intros H. destruct (Z.le_gt_cases (Zpos (digits2_pos p)) 53) as [L|L]; [exact L|]. exfalso.
  pose proof (digits_bound p) as B. assert (2 ^ 53 <= 2 ^ (Zpos (digits2_pos p) - 1)) by (apply Z.pow_le_mono_r; lia). lia.
Qed.
Lemma round_exact sx m e : Zpos (digits2_pos m) = 53 -> -1074 <= e <= 0 ->
  binary_round_aux 53 1024 sx (Zpos m) e loc_Exact = S754_finite sx m e.
Proof.
  intros D E. unfold binary_round_aux, shr_fexp, shr, shr_record_of_loc. cbn [Zdigits2]. rewrite D. unfold fexp.
  assert (Z.max (53 + e - 53) (emin 53 1024) - e = 0) as X by (unfold emin; lia). rewrite X.
  cbn [shr_m loc_of_shr_record round_nearest_even Zdigits2]. rewrite D, X. cbn [shr_m].
  destruct (Zle_bool e (1024 - 53)) eqn:L; [reflexivity|]. apply Z.leb_gt in L. lia.
Qed.
Lemma pow2_cancel m k : (inject_Z (Zpos m * 2 ^ Zpos k) * pow2 (- Zpos k) == inject_Z (Zpos m))%Q.
Proof.
  unfold pow2. destruct (Z.leb_spec 0 (- Zpos k)) as [L|L]; [lia|]. rewrite Z.opp_involutive.
  assert (0 < 2 ^ Zpos k) as P by (apply Z.pow_pos_nonneg; lia). destruct (2 ^ Zpos k) as [|q|q] eqn:E; try lia.
  unfold Qeq, Qmult, inject_Z. cbn [Qnum Qden Z.to_pos]. lia.
Qed.
Lemma float_exact_pos sx p : Zpos p < 2 ^ 53 -> exists m e, binary_round 53 1024 sx p 0 = S754_finite sx m e /\ (inject_Z (Zpos m) * pow2 e == inject_Z (Zpos p))%Q.
Proof.
  intros H. apply digits_small in H. unfold binary_round, shl_align. rewrite Z.add_0_r.
  assert (fexp 53 1024 (Zpos (digits2_pos p)) - 0 = Zpos (digits2_pos p) - 53) as X by (unfold fexp, emin; lia). rewrite X.
  assert (fexp 53 1024 (Zpos (digits2_pos p)) = Zpos (digits2_pos p) - 53) as X' by lia. rewrite X'.
  destruct (Zpos (digits2_pos p) - 53) as [|q|q] eqn:E; [|lia|].
  - rewrite round_exact by lia. exists p, 0. split; [reflexivity|]. unfold pow2. cbn. ring.
  - assert (Zpos (digits2_pos (shift_pos q p)) = 53) as D by (rewrite digits_shift; lia).
    rewrite round_exact by lia. exists (shift_pos q p), (Zneg q). split; [reflexivity|]. rewrite shift_value.
    change (Zneg q) with (- Zpos q). apply pow2_cancel.
Qed.
Lemma float_exact z : Z.abs z < 2 ^ 53 -> exists q, float_of_int z = Some (FNum q) /\ (q == inject_Z z)%Q.
Proof.
  intros H. unfold float_of_int, binary_normalize. destruct z as [|p|p].
  - exists 0%Q. split; reflexivity.
  - destruct (float_exact_pos false p) as (m & e & -> & E); [lia|]. eexists. split; [reflexivity|exact E].
  - destruct (float_exact_pos true p) as (m & e & -> & E); [lia|]. eexists. split; [reflexivity|].
    change (inject_Z (Zneg m)) with (- inject_Z (Zpos m))%Q. change (inject_Z (Zneg p)) with (- inject_Z (Zpos p))%Q. rewrite <- E. ring.
Qed.
Lemma float_ok v r : interpret_float v = Good r <->
  (r = v /\ exists f, v = VFloat f) \/ (exists z f, (v = VInt z \/ v = VLong z) /\ float_of_int z = Some f /\ r = VFloat f) \/
  (exists b : bool, v = VBool b /\ r = VFloat (FNum (if b then 1 else 0))).
Proof.
  split.
  - destruct v as [|b|z|z|f| | | | | | | |]; cbn; try discriminate.
    + intros E. injection E as <-. right. right. eauto.
    + destruct (float_of_int z) as [f|] eqn:E; [|discriminate]. intros H. injection H as <-. right. left. exists z, f. auto.
    + destruct (float_of_int z) as [f|] eqn:E; [|discriminate]. intros H. injection H as <-. right. left. exists z, f. auto.
    + intros E. injection E as <-. left. eauto.
  - intros [(-> & f & ->)|[(z & f & [->| ->] & E & ->)|(b & -> & ->)]]; cbn; rewrite ?E; reflexivity.
Qed.

(** ** Strings *)
Lemma ascii_char_spec z : is_ascii_char z = true <-> 0 <= z < 128.
Proof. unfold is_ascii_char. lia. Qed.
Lemma encode_spec u s : encode_ascii u = Some s <-> Forall2 (fun z c => ord c = z /\ z < 128) u s.
Proof.
  unfold encode_ascii. split.
  - destruct (forallb is_ascii_char u) eqn:E; [|discriminate]. intros H. injection H as <-. rewrite forallb_forall in E.
    induction u as [|z u IH]; cbn [map]; constructor.
    + assert (is_ascii_char z = true) as A by (apply E; left; reflexivity). apply ascii_char_spec in A. split; [apply ord_chr|]; lia.
    + apply IH. intros x X. apply E. right. exact X.
  - intros H. assert (forallb is_ascii_char u = true /\ map chr u = s) as [-> ->]; [|reflexivity].
    induction H as [|z c u s [E L] H [IH1 IH2]]; [split; reflexivity|]. cbn [forallb map]. rewrite IH1, IH2. subst z. rewrite chr_ord.
    split; [|reflexivity]. pose proof (ord_range c). rewrite (proj2 (ascii_char_spec (ord c))) by lia. reflexivity.
Qed.
Lemma text_fun v s s' : text v s -> text v s' -> s = s'.
Proof.
  intros A B. inversion A as [x|u x F]; subst; inversion B as [y|u' y F']; subst; [reflexivity|].
  apply encode_spec in F, F'. congruence.
Qed.
Lemma nul_spec s : existsb is_nul s = true <-> exists c, In c s /\ ord c = 0.
Proof. rewrite existsb_exists. unfold is_nul. setoid_rewrite Z.eqb_eq. reflexivity. Qed.
Lemma nul_false s : existsb is_nul s = false <-> forall c, In c s -> ord c <> 0.
Proof.
  destruct (existsb is_nul s) eqn:E.
  - apply nul_spec in E. destruct E as (c & I & Z0). split; [discriminate|]. intros H. exfalso. exact (H c I Z0).
  - split; [|reflexivity]. intros _ c I Z0. assert (existsb is_nul s = true) by (apply nul_spec; eauto). congruence.
Qed.
Lemma nul_uni u s : Forall2 (fun z c => ord c = z /\ z < 128) u s -> existsb (Z.eqb 0) u = existsb is_nul s.
Proof. induction 1 as [|z c u s [E L] H IH]; [reflexivity|]. cbn [existsb]. f_equal; [|exact IH]. unfold is_nul. rewrite E. apply Z.eqb_sym. Qed.
Lemma string_ok v r : interpret_8bit_string v = Good r <-> exists s, text v s /\ (forall c, In c s -> ord c <> 0) /\ r = VStr s.
Proof.
  split.
  - destruct v as [| | | | |s|u| | | | | |]; cbn; try discriminate.
    + destruct (existsb is_nul s) eqn:E; [discriminate|]. intros H. injection H as <-. exists s. split; [constructor|]. split; [apply nul_false; exact E|reflexivity].
    + destruct (encode_ascii u) as [s|] eqn:EN; [|discriminate]. destruct (existsb (Z.eqb 0) u) eqn:E; [discriminate|]. intros H. injection H as <-.
      apply encode_spec in EN. exists s. split; [constructor; exact EN|]. split; [|reflexivity]. apply nul_false. rewrite <- (nul_uni u s EN). exact E.
  - intros (s & T & N & ->). apply nul_false in N. inversion T as [x|u x F]; subst; cbn.
    + rewrite N. reflexivity.
    + pose proof (nul_uni u s F) as E. apply encode_spec in F. rewrite F, E, N. reflexivity.
Qed.

Lemma identifier_char_spec c : identifier_char c = true <-> letter_or_digit c \/ In c (str "-!$%&*+,.:;<=>?^_~").
Proof.
  revert c.
  assert (forall c, identifier_char c = ((97 <=? ord c) && (ord c <=? 122)) || ((65 <=? ord c) && (ord c <=? 90)) || ((48 <=? ord c) && (ord c <=? 57))
                                        || existsb (ceqb c) (str "-!$%&*+,.:;<=>?^_~")) as H.
  { intros c. apply Bool.eqb_prop. revert c. apply forall_chars. vm_compute. reflexivity. }
  intros c. rewrite H, !orb_true_iff, existsb_exists. unfold letter_or_digit. split.
  - intros [[[X|X]|X]|(d & I & E)]; [left; lia|left; lia|left; lia|]. right. destruct (ceqb_spec c d); [subst d; exact I|discriminate].
  - intros [[X|[X|X]]|I]; [left; left; left; lia|left; left; right; lia|left; right; lia|]. right. exists c. split; [exact I|].
    destruct (ceqb_spec c c); congruence.
Qed.
Lemma identifier_text_ok s r : identifier_text s = Good r <-> identifier s /\ r = VStr s.
Proof.
  unfold identifier_text, identifier. destruct s as [|a s]; [split; [discriminate|intros [[X _] _]; congruence]|].
  destruct (forallb identifier_char (a :: s)) eqn:E.
  - rewrite forallb_forall in E. split; [intros H; injection H as <-|intros [_ ->]; reflexivity].
    split; [|reflexivity]. split; [discriminate|]. intros c I. apply identifier_char_spec. auto.
  - split; [discriminate|]. intros [[_ H] _]. assert (forallb identifier_char (a :: s) = true) as X; [|congruence].
    apply forallb_forall. intros c I. apply identifier_char_spec. auto.
Qed.
Lemma identifier_ok v r : interpret_identifier v = Good r <-> exists s, text v s /\ identifier s /\ r = VStr s.
Proof.
  split.
  - destruct v as [| | | | |s|u| | | | | |]; cbn [interpret_identifier]; try discriminate.
    + intros H. apply identifier_text_ok in H. exists s. split; [constructor|exact H].
    + destruct (encode_ascii u) as [s|] eqn:E; [|discriminate]. intros H. apply identifier_text_ok in H. apply encode_spec in E. exists s. split; [constructor; exact E|exact H].
  - intros (s & T & I). apply identifier_text_ok in I. inversion T as [x|u x F]; subst; cbn [interpret_identifier]; [exact I|].
    apply encode_spec in F. rewrite F. exact I.
Qed.

Lemma utf8_ok v r : (forall u, v = VUni u -> Forall (fun z => 0 <= z < 1114112) u) ->
  interpret_as_utf8 v = Good r <->
  (exists s u, v = VStr s /\ utf8 u s /\ r = v) \/ (exists u s, v = VUni u /\ utf8 u s /\ r = VStr s) \/ (v = VNone /\ r = VStr []).
Proof.
  intros CP. split.
  - destruct v as [| | | | |s|u| | | | | |]; cbn; try discriminate.
    + intros H. injection H as <-. auto.
    + destruct (utf8_decode s) as [u|] eqn:E; [|discriminate]. intros H. injection H as <-. left. exists s, u. split; [reflexivity|]. split; [|reflexivity].
      eapply utf8_decode_sound; [apply le_n|exact E].
    + intros H. injection H as <-. right. left. exists u, (utf8_encode u). split; [reflexivity|]. split; [|reflexivity]. apply utf8_encode_spec. exact (CP u eq_refl).
  - intros [(s & u & -> & U & ->)|[(u & s & -> & U & ->)|[-> ->]]]; cbn.
    + rewrite (utf8_decode_of _ _ U). reflexivity.
    + apply utf8_fun in U. destruct U as [-> _]. reflexivity.
    + reflexivity.
Qed.

(** Removing white space. *)
Lemma lstrip_suffix s : exists w, s = w ++ lstrip s /\ forallb is_space w = true.
Proof.
  induction s as [|c s IH]; [exists []; auto|]. cbn. destruct (is_space c) eqn:E; [|exists []; auto].
  destruct IH as (w & E1 & E2). exists (c :: w). cbn. rewrite E, E2. split; [congruence|reflexivity].
Qed.
Lemma lstrip_head s c t : lstrip s = c :: t -> is_space c = false.
Proof. induction s as [|d s IH]; [discriminate|]. cbn. destruct (is_space d) eqn:E; [exact IH|]. intros H. injection H as <- <-. exact E. Qed.
Lemma strip_spec s : exists w1 w2, s = w1 ++ strip s ++ w2 /\ forallb is_space w1 = true /\ forallb is_space w2 = true /\ no_space_at_ends (strip s).
Proof.
  destruct (lstrip_suffix s) as (w1 & E1 & S1). destruct (lstrip_suffix (rev (lstrip s))) as (w2 & E2 & S2).
  exists w1, (rev w2). unfold strip. split.
  - rewrite E1 at 1. f_equal. rewrite <- rev_app_distr, <- E2, rev_involutive. reflexivity.
  - split; [exact S1|]. split.
    + rewrite forallb_forall in *. intros x X. apply S2. apply in_rev. exact X.
    + split.
      * intros c t E. destruct (lstrip s) as [|d t'] eqn:EL; [cbn in E; discriminate|].
        apply (lstrip_head s d t') in EL as ED. destruct (lstrip_suffix (rev (d :: t'))) as (w & EW & _).
        assert (d :: t' = rev (lstrip (rev (d :: t'))) ++ rev w) as X by (rewrite <- rev_app_distr, <- EW, rev_involutive; reflexivity).
        rewrite E in X. cbn in X. congruence.
      * intros c t E. apply (f_equal (@rev ascii)) in E. rewrite rev_involutive, rev_app_distr in E. cbn in E. exact (lstrip_head _ _ _ E).
Qed.
Lemma utf8_drop_spaces w : forall u s, forallb is_space w = true -> utf8 u (w ++ s) -> exists u', utf8 u' s.
Proof.
  induction w as [|c w IH]; intros u s S1 U; [eauto|]. cbn in S1. apply andb_true_iff in S1. destruct S1 as [SC SW].
  cbn in U. inversion U as [|z k u0 s0 UZ U0 EU ES]. subst u.
  assert (k = [c] /\ s0 = w ++ s) as [-> ->].
  { unfold is_space in SC. destruct UZ; cbn in ES; injection ES as EA ES; subst; [auto| | |]; exfalso; lia. }
  exact (IH _ _ SW U0).
Qed.
Lemma utf8_of_tail z k : utf8_of z k -> Forall (fun c => 128 <= ord c) (tl k).
Proof. destruct 1; cbn [tl]; repeat (apply Forall_cons; [lia|]); constructor. Qed.
Lemma utf8_app_inv u a b : utf8 u (a ++ b) -> (forall c t, b = c :: t -> ord c < 128) -> exists ua ub, utf8 ua a /\ utf8 ub b.
Proof.
  revert a. induction u as [|z u IH]; intros a U B; inversion U as [|z' k u' s' UZ U' EU ES]; subst.
  - symmetry in H. apply app_eq_nil in H. destruct H as [-> ->]. exists [], []. split; constructor.
  - destruct a as [|c a]; [exists [], (z :: u); split; [constructor|exact U]|].
    assert (exists a', c :: a = k ++ a' /\ s' = a' ++ b) as (a' & EA & ->).
    { clear -UZ ES B. assert (forall (k : bytes) a, k ++ s' = a ++ b -> (exists a', a = k ++ a' /\ s' = a' ++ b) \/ (exists k1 k2, k = k1 ++ k2 /\ k1 = a /\ k2 ++ s' = b /\ k2 <> [])) as SP.
      { induction k0 as [|x k0 IHk]; intros [|y a0] E; cbn in E.
        - left. exists []. auto.
        - left. exists (y :: a0). auto.
        - right. exists [], (x :: k0). repeat split; auto; discriminate.
        - injection E as <- E. destruct (IHk a0 E) as [(a' & -> & ->)|(k1 & k2 & -> & <- & E2 & N)].
          + left. exists a'. auto.
          + right. exists (x :: k1), k2. auto. }
      destruct (SP k (c :: a) ES) as [(a' & E1 & E2)|(k1 & k2 & EK & E1 & E2 & N)]; [eauto|]. exfalso. subst k1.
      destruct k2 as [|d k2]; [congruence|]. assert (ord d < 128) as D by (apply (B d (k2 ++ s')); symmetry; exact E2).
      pose proof (utf8_of_tail _ _ UZ) as TL. rewrite EK in TL. cbn in TL. rewrite Forall_forall in TL. specialize (TL d). rewrite in_app_iff in TL. specialize (TL (or_intror (or_introl eq_refl))). lia. }
    destruct (IH a' U' B) as (ua & ub & UA & UB). exists (z :: ua), ub. rewrite EA. split; [constructor; assumption|exact UB].
Qed.
Lemma utf8_strip u s : utf8 u s -> exists u', utf8 u' (strip s).
Proof.
  intros U. destruct (strip_spec s) as (w1 & w2 & E & S1 & S2 & _). rewrite E in U.
  destruct (utf8_drop_spaces w1 _ _ S1 U) as (u1 & U1). destruct (utf8_app_inv _ _ _ U1) as (ua & ub & UA & _); [|eauto].
  intros c t EQ. subst w2. cbn in S2. apply andb_true_iff in S2. destruct S2 as [SC _]. unfold is_space in SC. lia.
Qed.
