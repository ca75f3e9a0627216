(** What a text table looks like, independently of how ascii_tables.py builds it. *)
From Verif Require Import Base Bytes PyStr TableModel.

Definition white (c : ascii) : Prop := is_space c = true.

(** [line] is [full] without the white space at its end. *)
Definition trimmed (full line : bytes) : Prop :=
  exists ws, full = line ++ ws /\ Forall white ws /\ forall u c, line = u ++ [c] -> ~ white c.

(** [full] shows each text of [items] at the position given for it, and is blank elsewhere. *)
Definition placed (items : list (nat * bytes)) (full : bytes) : Prop :=
  (forall p s k, In (p, s) items -> (k < List.length s)%nat -> nth_error full (p + k) = nth_error s k) /\
  (forall p c, nth_error full p = Some c ->
     c = " "%char \/ exists q s, In (q, s) items /\ (q <= p < q + List.length s)%nat).

(** Where column [i] starts, in a table whose columns have the widths [w] and are followed by
    [pad] blanks. *)
Fixpoint start (pad w : nat -> nat) (i : nat) : nat :=
  match i with O => O | S j => (start pad w j + w j + pad j)%nat end.

(** The padding and the alignment of column [i]. *)
Definition padding_of (t : table) (i : nat) : nat :=
  match nth_error (tb_columns t) i with Some c => Z.to_nat (col_padding c) | None => O end.
Definition flush_right (t : table) (i : nat) : Prop :=
  exists c, nth_error (tb_columns t) i = Some c /\ col_align c = ARight.

(** The column that the [k]th heading starts at. *)
Fixpoint first_column (hs : list (bytes * nat)) (k : nat) : nat :=
  match hs, k with
  | (_, span) :: r, S j => (span + first_column r j)%nat
  | _, _ => O
  end.

(** The number of columns that the headings cover. *)
Definition covered (hs : list (bytes * nat)) : nat := fold_right (fun h n => (snd h + n)%nat) O hs.

(** Tables that can be rendered: with rows, if there are columns, and with headings for
    existing columns. *)
Definition complete (t : table) : Prop :=
  (exists z, tb_rows t = Some z /\ (tb_columns t = [] \/ 0 < z)) /\
  (covered (tb_headings t) <= List.length (tb_columns t))%nat.

(** Documented use: columns are aligned 'left' or 'right' and have no negative padding, and
    each heading covers some column. *)
Definition headings_span (t : table) : Prop := Forall (fun h => (1 <= snd h)%nat) (tb_headings t).
Definition proper (t : table) : Prop :=
  Forall (fun c => col_align c <> AOther /\ 0 <= col_padding c) (tb_columns t) /\ headings_span t.

(** The number of rows. *)
Definition rows_of (t : table) : nat := match tb_rows t with Some z => Z.to_nat z | None => O end.

(** [m] is the length of the longest cell of column [i]. *)
Definition longest (t : table) (i m : nat) : Prop :=
  (forall r, (r < rows_of t)%nat -> (List.length (cell t r i) <= m)%nat) /\
  exists r, (r < rows_of t)%nat /\ List.length (cell t r i) = m.

(** The widths [w] give each column room for its cells and each heading room for itself and a
    blank, and a column is wider than its cells only if a heading that starts there needs it. *)
Definition fitting (t : table) (w : nat -> nat) : Prop :=
  (forall k h span, nth_error (tb_headings t) k = Some (h, span) ->
     let c := first_column (tb_headings t) k in
     (start (padding_of t) w c + List.length h + 1 <= start (padding_of t) w (c + span))%nat) /\
  (forall i, (i < List.length (tb_columns t))%nat ->
     exists m, longest t i m /\
       (w i = m \/
        (m < w i)%nat /\
        exists k h span, nth_error (tb_headings t) k = Some (h, span) /\ i = first_column (tb_headings t) k /\
          start (padding_of t) w (i + span) = (start (padding_of t) w i + List.length h + 1)%nat)).

(** Where the cells of a row, and the headings, go. *)
Definition cell_place (t : table) (w : nat -> nat) (r i p : nat) : Prop :=
  (flush_right t i /\ (p + List.length (cell t r i) = start (padding_of t) w i + w i)%nat) \/
  (~ flush_right t i /\ p = start (padding_of t) w i).
Definition row_items (t : table) (w : nat -> nat) (r : nat) (items : list (nat * bytes)) : Prop :=
  Forall2 (fun i it => snd it = cell t r i /\ cell_place t w r i (fst it))
          (seq 0 (List.length (tb_columns t))) items.
Definition heading_items (t : table) (w : nat -> nat) (items : list (nat * bytes)) : Prop :=
  Forall2 (fun k it => exists span, nth_error (tb_headings t) k = Some (snd it, span) /\
                       fst it = start (padding_of t) w (first_column (tb_headings t) k))
          (seq 0 (List.length (tb_headings t))) items.

(** A rendering of the table: a line of headings, then the rows that aren't blank, in order,
    all without white space at their ends. *)
Definition shown_row (t : table) (w : nat -> nat) (r : nat) (ls : list bytes) : Prop :=
  exists items full line, row_items t w r items /\ placed items full /\ trimmed full line /\
    (line = [] /\ ls = [] \/ line <> [] /\ ls = [line]).
Definition rendering (t : table) (lines : list bytes) : Prop :=
  exists w items full title rows,
    fitting t w /\
    heading_items t w items /\ placed items full /\ trimmed full title /\
    Forall2 (shown_row t w) (seq 0 (rows_of t)) rows /\
    lines = title :: List.concat rows.

(** ** Reading a table back: the words of a text. *)
Inductive reads : bytes -> list bytes -> Prop :=
| reads_end s : Forall white s -> reads s []
| reads_word pre w post ws :
    Forall white pre -> w <> [] -> Forall (fun c => ~ white c) w ->
    (forall c r, post = c :: r -> white c) -> reads post ws ->
    reads (pre ++ w ++ post) (w :: ws).

(** The words of the cells of a row, from left to right. *)
Definition row_reads (t : table) (r : nat) (ws : list bytes) : Prop :=
  exists wss, Forall2 (fun i l => reads (cell t r i) l) (seq 0 (List.length (tb_columns t))) wss /\
              ws = List.concat wss.
