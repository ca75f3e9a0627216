(** Python integers as text: [str(n)], ["%d"], ["%0Nd"], ["%2d"], [int(s)], and
    [s.strip()], [s.split(sep)]. *)
From Verif Require Import Base Bytes.

Definition digit_char (d : Z) : ascii := chr (48 + d).
Definition digit_val (c : ascii) : Z := ord c - 48.

(** [str(z)] for [z >= 0]; [fuel] counts digits still allowed. *)
Fixpoint str_nonneg (fuel : nat) (z : Z) : bytes :=
  match fuel with
  | O => []
  | S f => if z <? 10 then [digit_char z] else str_nonneg f (z / 10) ++ [digit_char (z mod 10)]
  end.

Definition int_fuel (z : Z) : nat := S (Z.to_nat (Z.log2 z)).

(** [str(z)]. *)
Definition str_int (z : Z) : bytes :=
  if z <? 0 then "-"%char :: str_nonneg (int_fuel (- z)) (- z) else str_nonneg (int_fuel z) z.

(** [("%" + "0%dd" % n) % z] for [z >= 0]: pad with zeros to width [n]. *)
Definition zfill (n : nat) (s : bytes) : bytes :=
  repeat "0"%char (n - List.length s) ++ s.

(** ["%Nd" % z]: pad with spaces to width [n]. *)
Definition pad_left (n : nat) (s : bytes) : bytes :=
  repeat " "%char (n - List.length s) ++ s.

(** Value of a string of digits. *)
Definition digits_val (s : bytes) : Z := fold_left (fun acc c => acc * 10 + digit_val c) s 0.

Fixpoint lstrip (s : bytes) : bytes :=
  match s with [] => [] | c :: r => if is_space c then lstrip r else s end.

Definition strip (s : bytes) : bytes := rev (lstrip (rev (lstrip s))).

(** [int(s)] and [int(s, 10)] on a byte string (Python 2): optional white space around,
    optional sign, optional white space after the sign, at least one decimal digit. *)
Definition py_int (s : bytes) : res Z :=
  match strip s with
  | [] => Err ValueError
  | c :: r =>
      if ceqb c "-"%char then
        match lstrip r with
        | [] => Err ValueError
        | r' => if forallb is_digit r' then Ok (- digits_val r') else Err ValueError
        end
      else if ceqb c "+"%char then
        match lstrip r with
        | [] => Err ValueError
        | r' => if forallb is_digit r' then Ok (digits_val r') else Err ValueError
        end
      else if forallb is_digit (c :: r) then Ok (digits_val (c :: r)) else Err ValueError
  end.

(** [s.split(sep)] for a one-character separator. *)
Fixpoint split_on (sep : ascii) (s : bytes) : list bytes :=
  match s with
  | [] => [[]]
  | c :: r =>
      if ceqb c sep then [] :: split_on sep r
      else match split_on sep r with
           | [] => [[c]]
           | h :: t => (c :: h) :: t
           end
  end.

(** ** Lemmas *)

Lemma digit_val_char d : 0 <= d < 10 -> digit_val (digit_char d) = d.
Proof. intros H. unfold digit_val, digit_char. rewrite ord_chr; lia. Qed.

Lemma is_digit_char d : 0 <= d < 10 -> is_digit (digit_char d) = true.
Proof. intros H. unfold is_digit, digit_char. rewrite ord_chr by lia. lia. Qed.

Lemma digits_val_snoc s c : digits_val (s ++ [c]) = digits_val s * 10 + digit_val c.
Proof. unfold digits_val. rewrite fold_left_app. reflexivity. Qed.

Lemma int_fuel_enough f z : 0 <= z -> (Z.to_nat (Z.log2 z) < f)%nat ->
  digits_val (str_nonneg f z) = z /\ forallb is_digit (str_nonneg f z) = true /\ str_nonneg f z <> [].
Proof.
  revert z. induction f as [|f IH]; intros z Hz Hf; [lia|]. cbn [str_nonneg].
  destruct (Z.ltb_spec z 10) as [L|L].
  - unfold digits_val. cbn [fold_left forallb]. rewrite digit_val_char, is_digit_char by lia.
    repeat split; auto; discriminate.
  - assert (Z.log2 (z / 10) < Z.log2 z) as LL.
    { assert (z / 10 <= z / 2) by (apply Z.div_le_compat_l; lia).
      apply Z.le_lt_trans with (Z.log2 (z / 2)); [apply Z.log2_le_mono; auto|].
      change 2 with (2 ^ 1). rewrite <- Z.shiftr_div_pow2, Z.log2_shiftr by lia.
      pose proof (Z.log2_le_mono 10 z L). change (Z.log2 10) with 3 in *. lia. }
    assert (0 <= z / 10) as Hq by (apply Z.div_pos; lia).
    destruct (IH (z / 10) Hq) as (I1 & I2 & I3).
    { pose proof (Z.log2_nonneg (z / 10)). lia. }
    pose proof (Z.mod_pos_bound z 10 ltac:(lia)) as Hm.
    rewrite digits_val_snoc, I1, forallb_app, I2, digit_val_char by lia.
    cbn [forallb]. rewrite is_digit_char by lia. split; [|split].
    + pose proof (Z.div_mod z 10 ltac:(lia)). lia.
    + reflexivity.
    + destruct (str_nonneg f (z / 10)); discriminate.
Qed.

Lemma str_int_nonneg z : 0 <= z ->
  digits_val (str_int z) = z /\ forallb is_digit (str_int z) = true /\ str_int z <> [].
Proof.
  intros H. unfold str_int. destruct (Z.ltb_spec z 0); [lia|].
  apply int_fuel_enough; auto.
Qed.

Lemma digit_not_space c : is_digit c = true -> is_space c = false.
Proof. unfold is_digit, is_space. lia. Qed.

Lemma lstrip_nonspace s : (forall c r, s = c :: r -> is_space c = false) -> lstrip s = s.
Proof. destruct s as [|c r]; auto. intros H. simpl. rewrite (H c r); auto. Qed.

Lemma strip_clean s : forallb (fun c => negb (is_space c)) s = true -> strip s = s.
Proof.
  intros H. unfold strip. rewrite (lstrip_nonspace s).
  - rewrite lstrip_nonspace; [apply rev_involutive|].
    intros c r E. assert (In c s) as I.
    { apply in_rev. rewrite E. left. auto. }
    rewrite forallb_forall in H. apply H in I. destruct (is_space c); auto; discriminate.
  - intros c r ->. simpl in H. destruct (is_space c); auto; discriminate.
Qed.

Lemma digits_no_space s : forallb is_digit s = true -> forallb (fun c => negb (is_space c)) s = true.
Proof.
  rewrite !forallb_forall. intros H c I. rewrite digit_not_space; auto.
Qed.

Lemma py_int_digits s : s <> [] -> forallb is_digit s = true -> py_int s = Ok (digits_val s).
Proof.
  intros N D. unfold py_int. rewrite strip_clean by (apply digits_no_space; auto).
  destruct s as [|c r]; [congruence|].
  assert (is_digit c = true) as Dc by (simpl in D; apply andb_true_iff in D; tauto).
  destruct (ceqb_spec c "-"%char) as [->|]; [discriminate|].
  destruct (ceqb_spec c "+"%char) as [->|]; [discriminate|].
  rewrite D. reflexivity.
Qed.

(** [int(str(z)) == z]. *)
Lemma py_int_str z : py_int (str_int z) = Ok z.
Proof.
  destruct (Z.ltb_spec z 0) as [L|L].
  - destruct (str_int_nonneg (- z) ltac:(lia)) as (A & B & C).
    unfold str_int in A, B, C. destruct (Z.ltb_spec (- z) 0); [lia|].
    unfold str_int. destruct (Z.ltb_spec z 0); [|lia].
    set (s := str_nonneg (int_fuel (- z)) (- z)) in *.
    unfold py_int. rewrite strip_clean.
    + cbn [ceqb]. destruct (ceqb_spec "-"%char "-"%char); [|congruence].
      rewrite lstrip_nonspace.
      2:{ intros c r E. rewrite E in B. simpl in B. apply andb_true_iff in B.
          apply digit_not_space. tauto. }
      destruct s; [congruence|]. rewrite B, A. f_equal. lia.
    + cbn [forallb]. rewrite (digits_no_space s B). reflexivity.
  - destruct (str_int_nonneg z L) as (A & B & C). rewrite py_int_digits; auto. congruence.
Qed.

Lemma str_int_inj a b : str_int a = str_int b -> a = b.
Proof. intros E. pose proof (py_int_str a) as H. rewrite E, py_int_str in H. congruence. Qed.

Lemma digits_val_zeros n s : digits_val (repeat "0"%char n ++ s) = digits_val s.
Proof.
  unfold digits_val. rewrite fold_left_app. f_equal.
  induction n as [|n IH]; simpl; auto.
Qed.

Lemma zfill_val n s : digits_val (zfill n s) = digits_val s.
Proof. apply digits_val_zeros. Qed.

Lemma zfill_digits n s : forallb is_digit s = true -> forallb is_digit (zfill n s) = true.
Proof.
  intros H. unfold zfill. rewrite forallb_app, H, andb_true_r.
  generalize (n - List.length s)%nat as k. intros k. induction k; simpl; auto.
Qed.

(** Zero-padded forms of different non-negative numbers differ. *)
Lemma zfill_inj n a b : 0 <= a -> 0 <= b -> zfill n (str_int a) = zfill n (str_int b) -> a = b.
Proof.
  intros Ha Hb E. apply (f_equal digits_val) in E. rewrite !zfill_val in E.
  rewrite (proj1 (str_int_nonneg a Ha)), (proj1 (str_int_nonneg b Hb)) in E. exact E.
Qed.

Lemma zfill_length n s : (n <= List.length (zfill n s))%nat /\ (List.length s <= List.length (zfill n s))%nat.
Proof. unfold zfill. rewrite app_length, repeat_length. lia. Qed.

(** Any run of digits is what is read back, so the number of digits of [z] is at most [n]
    exactly when [z < 10^n]. *)
Lemma digits_val_bound s : forallb is_digit s = true -> 0 <= digits_val s < 10 ^ Z.of_nat (List.length s).
Proof.
  induction s as [|c s IH] using rev_ind; intros H.
  - unfold digits_val. simpl. lia.
  - rewrite forallb_app in H. apply andb_true_iff in H. destruct H as [H1 H2].
    specialize (IH H1). rewrite digits_val_snoc, app_length. cbn [List.length].
    simpl in H2. unfold is_digit, digit_val in *.
    rewrite Nat2Z.inj_add, Z.pow_add_r by lia. change (10 ^ Z.of_nat 1) with 10. nia.
Qed.

Lemma str_nonneg_length f z n : 0 <= z -> (Z.to_nat (Z.log2 z) < f)%nat -> z < 10 ^ Z.of_nat n -> (1 <= n)%nat ->
  (List.length (str_nonneg f z) <= n)%nat.
Proof.
  revert z n. induction f as [|f IH]; intros z n Hz Hf Hn Hp; [lia|]. cbn [str_nonneg].
  destruct (Z.ltb_spec z 10) as [L|L]; [simpl; lia|].
  rewrite app_length. cbn [List.length].
  assert (Z.log2 (z / 10) < Z.log2 z) as LL.
  { assert (z / 10 <= z / 2) by (apply Z.div_le_compat_l; lia).
    apply Z.le_lt_trans with (Z.log2 (z / 2)); [apply Z.log2_le_mono; auto|].
    change 2 with (2 ^ 1). rewrite <- Z.shiftr_div_pow2, Z.log2_shiftr by lia.
    pose proof (Z.log2_le_mono 10 z L). change (Z.log2 10) with 3 in *. lia. }
  destruct n as [|[|n]]; [lia|simpl in Hn; lia|].
  assert (List.length (str_nonneg f (z / 10)) <= S n)%nat; [|lia].
  apply IH; [apply Z.div_pos; lia| |  |lia].
  - pose proof (Z.log2_nonneg (z / 10)). lia.
  - apply Z.div_lt_upper_bound; [lia|].
    replace (Z.of_nat (S (S n))) with (1 + Z.of_nat (S n)) in Hn by lia.
    rewrite Z.pow_add_r in Hn by lia. lia.
Qed.

Lemma str_int_length z n : 0 <= z < 10 ^ Z.of_nat n -> (1 <= n)%nat -> (List.length (str_int z) <= n)%nat.
Proof.
  intros H Hn. unfold str_int. destruct (Z.ltb_spec z 0); [lia|].
  apply str_nonneg_length; unfold int_fuel; lia.
Qed.
