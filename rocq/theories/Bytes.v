(** 8-bit strings as lists of [ascii]. *)
From Verif Require Import Base.
From Coq Require Export Ascii String.
Open Scope list_scope.

Definition bytes := list ascii.

(** String literals. *)
Definition str (s : string) : bytes := list_ascii_of_string s.

Definition ceqb := Ascii.eqb.

Lemma ceqb_spec a b : reflect (a = b) (ceqb a b).
Proof. apply Ascii.eqb_spec. Qed.

Fixpoint bytes_eqb (a b : bytes) : bool :=
  match a, b with
  | [], [] => true
  | x :: a', y :: b' => ceqb x y && bytes_eqb a' b'
  | _, _ => false
  end.

Lemma bytes_eqb_spec a b : reflect (a = b) (bytes_eqb a b).
Proof.
  revert b; induction a as [|x a IH]; intros [|y b]; simpl; try (constructor; congruence).
  destruct (ceqb_spec x y); simpl; [|constructor; congruence].
  destruct (IH b); constructor; congruence.
Qed.

Lemma bytes_eqb_refl a : bytes_eqb a a = true.
Proof. destruct (bytes_eqb_spec a a); congruence. Qed.

(** Character code, [ord(c)]. *)
Definition ord (c : ascii) : Z := Z.of_N (N_of_ascii c).
Definition chr (z : Z) : ascii := ascii_of_N (Z.to_N z).

Definition char_lf : ascii := "010"%char.
Definition char_cr : ascii := "013"%char.
Definition char_tab : ascii := "009"%char.
Definition char_ff : ascii := "012"%char.
Definition char_vt : ascii := "011"%char.
Definition char_sp : ascii := " "%char.
Definition char_bs : ascii := "\"%char.
Definition char_rb : ascii := "]"%char.
Definition char_lb : ascii := "["%char.
Definition char_colon : ascii := ":"%char.

Definition is_upper (c : ascii) : bool := (65 <=? ord c) && (ord c <=? 90).
Definition is_lower (c : ascii) : bool := (97 <=? ord c) && (ord c <=? 122).
Definition is_digit (c : ascii) : bool := (48 <=? ord c) && (ord c <=? 57).
Definition is_letter (c : ascii) : bool := is_upper c || is_lower c.

(** Python 2's [\s] for 8-bit strings, and [str.isspace]: tab, newline,
    vertical tab, form feed, carriage return, space. *)
Definition is_space (c : ascii) : bool :=
  ((9 <=? ord c) && (ord c <=? 13)) || (ord c =? 32).

Lemma ord_range c : 0 <= ord c < 256.
Proof.
  unfold ord. pose proof (N_ascii_bounded c). lia.
Qed.

Lemma chr_ord c : chr (ord c) = c.
Proof. unfold chr, ord. rewrite N2Z.id. apply ascii_N_embedding. Qed.

Lemma ord_chr z : 0 <= z < 256 -> ord (chr z) = z.
Proof. intros H. unfold chr, ord. rewrite N_ascii_embedding; lia. Qed.

Lemma ord_inj a b : ord a = ord b -> a = b.
Proof. intros H. rewrite <- (chr_ord a), <- (chr_ord b), H. reflexivity. Qed.

(** A property of all 256 characters can be checked exhaustively. *)
Definition all_chars : list ascii := map chr (map Z.of_nat (seq 0 256)).

Lemma all_chars_In c : In c all_chars.
Proof.
  unfold all_chars. rewrite <- (chr_ord c). apply in_map.
  pose proof (ord_range c). replace (ord c) with (Z.of_nat (Z.to_nat (ord c))) by lia.
  apply in_map. apply in_seq. lia.
Qed.

Lemma forall_chars (f : ascii -> bool) : forallb f all_chars = true -> forall c, f c = true.
Proof. intros H c. rewrite forallb_forall in H. apply H, all_chars_In. Qed.

(** [s.lower()] / [s.upper()] on ASCII letters (Python 2, C locale). *)
Definition lower_char (c : ascii) : ascii := if is_upper c then chr (ord c + 32) else c.
Definition upper_char (c : ascii) : ascii := if is_lower c then chr (ord c - 32) else c.

(** Byte-string comparison (lexicographic by character code), [a < b]. *)
Fixpoint bytes_ltb (a b : bytes) : bool :=
  match a, b with
  | _, [] => false
  | [], _ :: _ => true
  | x :: a', y :: b' =>
      if ord x <? ord y then true
      else if ord y <? ord x then false
      else bytes_ltb a' b'
  end.

(** [sep.join(l)]. *)
Fixpoint join (sep : bytes) (l : list bytes) : bytes :=
  match l with
  | [] => []
  | [x] => x
  | x :: rest => x ++ sep ++ join sep rest
  end.
