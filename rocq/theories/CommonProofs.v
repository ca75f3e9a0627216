(** Proofs about vertices, handicap layouts and diagrams (C07 - C09). *)
From Verif Require Import Base Bytes PyStr BoardModel BoardSpec BoardProofs BoardPlayProofs BoardMainProofs.
From Verif Require Import CommonModel CommonSpec.

(** * C08 *)

(** The column computed from a letter. *)
Definition col_of (c : ascii) : Z :=
  if ord "i"%char <? ord c then ord c - ord "b"%char else ord c - ord "a"%char.

Lemma columns_lower : map lower_char gtp_columns = gtp_columns_lower.
Proof. reflexivity. Qed.

(** Exhaustive check over the 25 columns. *)
Lemma col_of_nth n l : nth_error gtp_columns_lower n = Some l ->
  col_of l = Z.of_nat n /\ (97 <= ord l <= 122) /\ l <> "i"%char.
Proof.
  intros H.
  assert (n < 25)%nat as L.
  { apply nth_error_Some_lt in H || (assert (nth_error gtp_columns_lower n <> None) by congruence;
      apply nth_error_Some in H0; exact H0). }
  do 25 (destruct n as [|n]; [injection H as <-; vm_compute; repeat split; discriminate|]).
  lia.
Qed.

Lemma lower_idem c : lower_char (lower_char c) = lower_char c.
Proof.
  assert (forallb (fun c => ceqb (lower_char (lower_char c)) (lower_char c)) all_chars = true) as H
    by (vm_compute; reflexivity).
  pose proof (forall_chars _ H c) as E. cbv beta in E. destruct (ceqb_spec (lower_char (lower_char c)) (lower_char c)); auto.
  discriminate.
Qed.

Lemma lower_digit c : is_digit c = true -> lower_char c = c.
Proof. intros H. unfold lower_char, is_upper, is_digit in *.
  destruct ((65 <=? ord c) && (ord c <=? 90)) eqn:E; auto. lia. Qed.

Lemma map_lower_digits s : forallb is_digit s = true -> map lower_char s = s.
Proof.
  induction s as [|c s IH]; simpl; auto. intros H. apply andb_true_iff in H. destruct H as [H1 H2].
  rewrite lower_digit, IH; auto.
Qed.

(** Every lower-case letter but i names a column; found exhaustively. *)
Lemma nth_col_of c : 97 <= ord c <= 122 -> c <> "i"%char ->
  0 <= col_of c < 25 /\ nth_error gtp_columns_lower (Z.to_nat (col_of c)) = Some c.
Proof.
  intros H N.
  assert (forallb (fun c => if (97 <=? ord c) && (ord c <=? 122) && negb (ceqb c "i"%char)
     then (0 <=? col_of c) && (col_of c <? 25) &&
          match nth_error gtp_columns_lower (Z.to_nat (col_of c)) with Some d => ceqb c d | None => false end
     else true) all_chars = true) as F by (vm_compute; reflexivity).
  pose proof (forall_chars _ F c) as E. cbv beta in E.
  destruct (ceqb_spec c "i"%char); [congruence|].
  replace ((97 <=? ord c) && (ord c <=? 122)) with true in E by lia. cbn [andb negb] in E.
  apply andb_true_iff in E. destruct E as [E1 E2].
  destruct (nth_error gtp_columns_lower (Z.to_nat (col_of c))) as [d|]; [|discriminate].
  destruct (ceqb_spec c d); [|discriminate]. subst. split; [lia|auto].
Qed.

Lemma column_letter_nth col : 0 <= col < 25 -> exists l, column_letter col = Ok l /\
  nth_error gtp_columns (Z.to_nat col) = Some l.
Proof.
  intros H. unfold column_letter. change column_letters with gtp_columns.
  destruct (nth_error gtp_columns (Z.to_nat col)) as [l|] eqn:E; eauto.
  apply nth_error_None in E. change (List.length gtp_columns) with 25%nat in E. lia.
Qed.

Lemma nth_lower n l : nth_error gtp_columns n = Some l ->
  nth_error gtp_columns_lower n = Some (lower_char l).
Proof. intros H. rewrite <- columns_lower. apply map_nth_error. exact H. Qed.

Lemma lower_names l col : names_column l col ->
  nth_error gtp_columns_lower (Z.to_nat col) = Some (lower_char l).
Proof.
  intros [_ [H|H]]; [apply nth_lower; auto|].
  rewrite H. f_equal. destruct (col_of_nth _ _ H) as (_ & R & _).
  unfold lower_char, is_upper. destruct ((65 <=? ord l) && (ord l <=? 90)) eqn:E; auto. lia.
Qed.

Lemma lower_names_iff l col : 0 <= col ->
  nth_error gtp_columns_lower (Z.to_nat col) = Some (lower_char l) -> names_column l col.
Proof.
  intros H0 H. split; auto.
  assert (l = lower_char l \/ exists k, (97 <= ord (lower_char l) <= 122) /\ k = l /\ is_upper l = true) as [E|(k & R & _ & U)].
  { unfold lower_char in *. destruct (is_upper l) eqn:U; auto. right. exists l. split; auto.
    unfold is_upper in U. rewrite ord_chr by lia. lia. }
  - right. congruence.
  - left. assert (Z.to_nat col < 25)%nat as L.
    { change 25%nat with (List.length gtp_columns_lower). apply nth_error_Some. congruence. }
    destruct (nth_error gtp_columns (Z.to_nat col)) as [m|] eqn:Em.
    + apply nth_lower in Em as Em2. rewrite H in Em2. injection Em2 as E2.
      f_equal. apply ord_inj.
      assert (is_upper m = true) as Um.
      { assert (forallb is_upper gtp_columns = true) as F by reflexivity.
        rewrite forallb_forall in F. apply F. eapply nth_error_In; eauto. }
      unfold lower_char in E2. rewrite U, Um in E2. apply (f_equal ord) in E2.
      unfold is_upper in U, Um. rewrite !ord_chr in E2 by lia. lia.
    + apply nth_error_None in Em. change (List.length gtp_columns) with 25%nat in Em. lia.
Qed.

(** [move_from_vertex] on a string, in terms of its first letter and the rest. *)
Lemma move_from_vertex_some v size r c :
  move_from_vertex v size = Ok (Some (r, c)) <->
  1 <= size <= 25 /\ 0 <= r < size /\ c < size /\
  exists l rest, v = l :: rest /\ map lower_char v <> str "pass" /\ names_column l c /\
    py_int (map lower_char rest) = Ok (r + 1).
Proof.
  unfold move_from_vertex.
  destruct ((0 <? size) && (size <=? 25)) eqn:Es; cbn [negb]; [|split; [discriminate|lia]].
  destruct (bytes_eqb_spec (map lower_char v) (str "pass")) as [Ep|Np].
  { split; [discriminate|]. intros (_ & _ & _ & l & rest & -> & H & _). congruence. }
  destruct v as [|l rest]; cbn [map].
  { split; [discriminate|]. intros (_ & _ & _ & l & rest & H & _). discriminate. }
  fold (col_of (lower_char l)).
  destruct (negb ((97 <=? ord (lower_char l)) && (ord (lower_char l) <=? 122)) || ceqb (lower_char l) "i"%char) eqn:El.
  { split; [discriminate|]. intros (_ & _ & _ & l2 & rest2 & E & _ & H & _). injection E as <- <-.
    apply lower_names in H. apply col_of_nth in H. destruct H as (_ & R & N).
    destruct (ceqb_spec (lower_char l) "i"%char); [congruence|].
    replace ((97 <=? ord (lower_char l)) && (ord (lower_char l) <=? 122)) with true in El by lia.
    discriminate. }
  apply orb_false_iff in El. destruct El as [E1 E2]. apply negb_false_iff in E1.
  assert (97 <= ord (lower_char l) <= 122) as R by lia.
  destruct (ceqb_spec (lower_char l) "i"%char) as [|Ni]; [discriminate|].
  destruct (nth_col_of _ R Ni) as [Rc Hc].
  assert (names_column l (col_of (lower_char l))) as NC by (apply lower_names_iff; [lia|exact Hc]).
  assert (forall c', names_column l c' -> c' = col_of (lower_char l)) as UC.
  { intros c' H. pose proof (proj1 H). apply lower_names in H. apply col_of_nth in H. lia. }
  destruct (py_int (map lower_char rest)) as [n|e] eqn:En.
  - destruct (Z.ltb_spec (n - 1) 0).
    { split; [discriminate|]. intros (_ & Hr & _ & l2 & rest2 & E & _ & _ & H2). injection E as <- <-.
      rewrite En in H2. injection H2 as H2. lia. }
    destruct ((col_of (lower_char l) <? size) && (n - 1 <? size)) eqn:Eb; cbn [negb].
    + split.
      * intros E. injection E as <- <-. split; [lia|]. split; [lia|]. split; [lia|].
        exists l, rest. split; auto. split; auto. split; auto. f_equal. rewrite En. f_equal. lia.
      * intros (_ & Hr & _ & l2 & rest2 & E & _ & H1 & H2). injection E as <- <-.
        rewrite En in H2. injection H2 as H2. rewrite (UC _ H1). do 3 f_equal. lia.
    + split; [discriminate|]. intros (_ & Hr & Hcs & l2 & rest2 & E & _ & H1 & H2). injection E as <- <-.
      rewrite En in H2. injection H2 as H2. apply UC in H1. exfalso. lia.
  - split; [discriminate|]. intros (_ & _ & _ & l2 & rest2 & E & _ & _ & H2). injection E as <- <-.
    congruence.
Qed.

Lemma move_from_vertex_total v size :
  move_from_vertex v size = Err ValueError \/
  (1 <= size <= 25 /\
   (move_from_vertex v size = Ok None /\ map lower_char v = str "pass" \/
    exists p, move_from_vertex v size = Ok (Some p) /\ on_board size p)).
Proof.
  destruct (move_from_vertex v size) as [[[r c]|]|e] eqn:E.
  - right. apply move_from_vertex_some in E. destruct E as (S1 & R1 & C1 & l & rest & -> & _ & [N _] & _).
    split; auto. right. exists (r, c). split; auto. unfold on_board. simpl. lia.
  - right. unfold move_from_vertex in E.
    destruct ((0 <? size) && (size <=? 25)) eqn:Es; cbn [negb] in E; [|discriminate].
    split; [lia|]. left. split; auto.
    destruct (bytes_eqb_spec (map lower_char v) (str "pass")) as [Ep|Np]; auto. exfalso.
    destruct (map lower_char v); [discriminate|].
    repeat match type of E with
           | (if ?x then _ else _) = _ => destruct x
           | match ?x with _ => _ end = _ => destruct x
           end; discriminate.
  - left. unfold move_from_vertex in E.
    destruct ((0 <? size) && (size <=? 25)) eqn:Es; cbn [negb] in E; [|congruence].
    destruct (bytes_eqb (map lower_char v) (str "pass")); [discriminate|].
    destruct (map lower_char v); [congruence|].
    repeat match type of E with
           | (if ?x then _ else _) = _ => destruct x
           | match ?x with _ => _ end = _ => destruct x
           end; congruence.
Qed.

Lemma move_from_vertex_case v w size : map lower_char v = map lower_char w ->
  move_from_vertex v size = move_from_vertex w size.
Proof. intros E. unfold move_from_vertex. rewrite E. reflexivity. Qed.

Lemma format_vertex_ok m :
  (exists s, format_vertex m = Ok s) <-> match m with None => True | Some p => on_board 25 p end.
Proof.
  destruct m as [[r c]|]; [|simpl; split; eauto].
  unfold format_vertex, on_board. cbn [fst snd].
  destruct (negb ((0 <=? r) && (r <? 25)) || negb ((0 <=? c) && (c <? 25))) eqn:E.
  - split; [intros (s & H); discriminate|]. lia.
  - destruct (column_letter_nth c ltac:(lia)) as (l & -> & _). cbn [bind]. split; eauto. lia.
Qed.

Lemma format_vertex_err m e : format_vertex m = Err e -> e = ValueError.
Proof.
  destruct m as [[r c]|]; [|discriminate]. unfold format_vertex.
  destruct (negb ((0 <=? r) && (r <? 25)) || negb ((0 <=? c) && (c <? 25))) eqn:E; [congruence|].
  destruct (column_letter_nth c ltac:(lia)) as (l & -> & _). discriminate.
Qed.

Lemma vertex_roundtrip m size s : 1 <= size <= 25 ->
  match m with None => True | Some p => on_board size p end ->
  format_vertex m = Ok s -> move_from_vertex s size = Ok m.
Proof.
  intros Hs Hm E. destruct m as [[r c]|].
  - unfold on_board in Hm. cbn [fst snd] in Hm. unfold format_vertex in E.
    destruct (negb ((0 <=? r) && (r <? 25)) || negb ((0 <=? c) && (c <? 25))) eqn:Eb; [discriminate|].
    destruct (column_letter_nth c ltac:(lia)) as (l & Hl & Hn). rewrite Hl in E. cbn [bind] in E.
    injection E as <-. destruct (str_int_nonneg (r + 1) ltac:(lia)) as (A & B & C).
    apply move_from_vertex_some. split; [lia|]. split; [lia|]. split; [lia|].
    exists l, (str_int (r + 1)). split; [auto|]. split; [|split].
    + cbn [map]. rewrite map_lower_digits by auto. intros X. injection X as _ X. rewrite X in B. discriminate.
    + split; [lia|]. auto.
    + rewrite map_lower_digits by auto. apply py_int_str.
  - injection E as <-. unfold move_from_vertex.
    replace ((0 <? size) && (size <=? 25)) with true by lia. reflexivity.
Qed.

(** * C09 *)

Lemma max_fixed_spec size :
  max_fixed_handicap size =
    if size <=? 7 then Ok 0 else if 25 <? size then Err ValueError
    else if Z.even size then Ok 4 else Ok 9.
Proof.
  unfold max_fixed_handicap. destruct (Z.leb_spec size 7); auto. destruct (25 <? size); auto.
  rewrite Zmod_even. destruct (Z.even size); simpl; auto.
  destruct (Z.eqb_spec size 7); auto. lia.
Qed.

Lemma handicap_points_spec n size :
  handicap_points n size =
    if (size <=? 25) && (8 <=? size) && (2 <=? n) && (n <=? (if Z.even size then 4 else 9))
    then Ok (gtp_handicap n size) else Err ValueError.
Proof.
  unfold handicap_points. rewrite max_fixed_spec.
  destruct (Z.leb_spec size 7).
  { cbn [bind]. replace (8 <=? size) with false by lia. rewrite andb_false_r. cbn [andb].
    destruct (Z.ltb_spec 0 n); auto. destruct (Z.ltb_spec n 2); auto. lia. }
  destruct (Z.ltb_spec 25 size).
  { replace (size <=? 25) with false by lia. reflexivity. }
  replace (size <=? 25) with true by lia. replace (8 <=? size) with true by lia. cbn [andb].
  set (m := if Z.even size then 4 else 9).
  assert ((if Z.even size then Ok 4 else Ok 9) = Ok m) as ->.
  { unfold m. destruct (Z.even size); reflexivity. }
  assert (m <= 9) as Hm by (unfold m; destruct (Z.even size); lia). clearbody m. cbn [bind].
  destruct (Z.ltb_spec m n).
  { replace (n <=? m) with false by lia. rewrite andb_false_r. reflexivity. }
  destruct (Z.ltb_spec n 2).
  { replace (2 <=? n) with false by lia. reflexivity. }
  replace (2 <=? n) with true by lia. replace (n <=? m) with true by lia. cbn [andb].
  unfold gtp_handicap. set (lo := if size <? 13 then 2 else 3).
  replace (size - lo - 1) with (size - 1 - lo) by lia.
  assert (n = 2 \/ n = 3 \/ n = 4 \/ n = 5 \/ n = 6 \/ n = 7 \/ n = 8 \/ n = 9) as C by lia.
  repeat destruct C as [->|C]; try subst n; reflexivity.
Qed.

Definition handicap_ok (n size : Z) (pts : list point) : Prop :=
  Z.of_nat (List.length pts) = n /\ NoDup pts /\
  (forall p, In p pts -> on_board size p /\ 2 <= fst p <= size - 3 /\ 2 <= snd p <= size - 3) /\
  (n <> 3 -> forall p, In p pts -> In (half_turn size p) pts) /\
  pts = gtp_handicap n size.

Ltac in_cases := repeat match goal with
  | H : In _ (_ :: _) |- _ => destruct H as [<-|H]
  | H : In _ [] |- _ => destruct H
  end.

Lemma handicap_points_ok n size pts : handicap_points n size = Ok pts ->
  8 <= size <= 25 /\ 2 <= n <= 9 /\ (Z.even size = true -> n <= 4) /\ handicap_ok n size pts.
Proof.
  rewrite handicap_points_spec.
  destruct ((size <=? 25) && (8 <=? size) && (2 <=? n) && (n <=? (if Z.even size then 4 else 9))) eqn:E; [|discriminate].
  assert (n <= 9 /\ (Z.even size = true -> n <= 4)) as [N9 N4].
  { destruct (Z.even size); lia. }
  intros H. injection H as <-. split; [lia|]. split; [lia|]. split; [auto|].
  assert (8 <= size <= 25 /\ 2 <= n) as [S1 N2] by lia. clear E.
  unfold handicap_ok, gtp_handicap.
  set (lo := if size <? 13 then 2 else 3).
  assert (2 <= lo /\ 2 * lo + 1 < size - 1) as [L1 L2].
  { unfold lo. destruct (Z.ltb_spec size 13); lia. }
  clearbody lo.
  assert (4 < n -> size - 1 = 2 * ((size - 1) / 2)) as Odd.
  { intros N. destruct (Z.even size) eqn:Ev; [lia|].
    assert (Z.odd size = true) as O by (rewrite <- Z.negb_even, Ev; reflexivity).
    rewrite Zodd_mod in O. apply Zeq_bool_eq in O.
    pose proof (Z.div_mod (size - 1) 2 ltac:(lia)).
    assert ((size - 1) mod 2 = 0) by (rewrite Zminus_mod, O; reflexivity). lia. }
  assert (lo < (size - 1) / 2 < size - 1 - lo) as [M1 M2].
  { split; [apply Z.lt_le_trans with (lo + 1); [lia|]; apply Z.div_le_lower_bound; lia|].
    apply Z.div_lt_upper_bound; lia. }
  set (mid := (size - 1) / 2) in *. clearbody mid.
  set (hi := size - 1 - lo). assert (hi = size - 1 - lo) as Hh by reflexivity. clearbody hi.
  assert (n = 2 \/ n = 3 \/ n = 4 \/ n = 5 \/ n = 6 \/ n = 7 \/ n = 8 \/ n = 9) as C by lia.
  assert (forall a b, In (a, b) (gtp_layout lo mid hi n) -> True) as _ by auto.
  repeat destruct C as [->|C]; try subst n;
    cbv [gtp_layout corners4 sides_lr sides_tb centre app Z.eqb Pos.eqb];
    (split; [reflexivity|]; split;
      [repeat (constructor; [simpl; intros X; repeat (destruct X as [X|X]; [injection X; lia|]); exact X|]); constructor|];
      split;
      [intros p I; unfold on_board; simpl in I;
       repeat (destruct I as [<-|I]; [simpl; lia|]); destruct I|];
      split; [|reflexivity];
      intros N p I; unfold half_turn; simpl in I;
      try (exfalso; lia);
      repeat (destruct I as [<-|I];
        [cbn [fst snd];
         replace (size - 1 - lo) with hi by lia; replace (size - 1 - hi) with lo by lia;
         try replace (size - 1 - mid) with mid by lia; simpl; tauto|]); destruct I).
Qed.
