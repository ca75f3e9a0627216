(** Model of gomill/ascii_tables.py: Column_spec and Table. *)
From Verif Require Import Base Bytes PyStr GtpModel.

(** [s.ljust(width)] and [s.rjust(width)]. *)
Definition ljust (s : bytes) (width : Z) : bytes :=
  s ++ repeat " "%char (Z.to_nat (width - Z.of_nat (List.length s))).
Definition rjust (s : bytes) (width : Z) : bytes :=
  repeat " "%char (Z.to_nat (width - Z.of_nat (List.length s))) ++ s.

(** ascii_tables.py:10-20: the attributes of Column_spec.  [AOther]: any other value of
    [align]. *)
Inductive align : Type := ALeft | ARight | AOther.
Record column : Type := mkCol { col_align : align; col_padding : Z }.

(** ascii_tables.py:22-27 [Column_spec.render]. *)
Definition render_cell (c : column) (s : bytes) (width : Z) : bytes :=
  (match col_align c with
   | ALeft => ljust s width
   | ARight => rjust s width
   | AOther => s
   end) ++ repeat " "%char (Z.to_nat (col_padding c)).

(** ascii_tables.py:42-47: the attributes of Table.  [cells] lists what was put into the
    dictionary, latest first; spans are natural numbers (negative ones are not modelled). *)
Record table : Type := mkTable {
  tb_rows : option Z;
  tb_headings : list (bytes * nat);
  tb_columns : list column;
  tb_cells : list ((nat * nat) * bytes)
}.

(** ascii_tables.py:42-47. *)
Definition new_table (rows : option Z) : table := mkTable rows [] [] [].

(** ascii_tables.py:49-51 [set_row_count]. *)
Definition set_row_count (t : table) (rows : option Z) : table :=
  mkTable rows (tb_headings t) (tb_columns t) (tb_cells t).

(** ascii_tables.py:53-62 [add_heading]. *)
Definition add_heading (t : table) (heading : bytes) (span : nat) : table :=
  mkTable (tb_rows t) (tb_headings t ++ [(heading, span)]) (tb_columns t) (tb_cells t).

(** ascii_tables.py:64-83 [add_column]: the table and the column id. *)
Definition add_column (t : table) (a : align) (padding : Z) : table * nat :=
  (mkTable (tb_rows t) (tb_headings t) (tb_columns t ++ [mkCol a padding]) (tb_cells t),
   List.length (tb_columns t)).

(** ascii_tables.py:85-91 [get_column], used to set the column's [right_padding]
    ([t.columns[i].right_padding = n]). *)
Fixpoint change_padding (l : list column) (i : nat) (padding : Z) : res (list column) :=
  match l, i with
  | [], _ => Err IndexError
  | c :: r, O => Ok (mkCol (col_align c) padding :: r)
  | c :: r, S j => do r' <- change_padding r j padding; Ok (c :: r')
  end.
Definition set_padding (t : table) (i : nat) (padding : Z) : res table :=
  do l <- change_padding (tb_columns t) i padding;
  Ok (mkTable (tb_rows t) (tb_headings t) l (tb_cells t)).

(** ascii_tables.py:93-106 [set_column_values]; the values are already strings here. *)
Fixpoint put_values (row col : nat) (values : list bytes) (cells : list ((nat * nat) * bytes)) :=
  match values with
  | [] => cells
  | v :: r => put_values (S row) col r (((row, col), v) :: cells)
  end.
Definition set_column_values (t : table) (col : nat) (values : list bytes) : table :=
  mkTable (tb_rows t) (tb_headings t) (tb_columns t) (put_values 0 col values (tb_cells t)).

(** [self.cells[row, col]]: a defaultdict(str). *)
Fixpoint cell_in (cells : list ((nat * nat) * bytes)) (row col : nat) : bytes :=
  match cells with
  | [] => []
  | ((r, c), v) :: rest => if Nat.eqb r row && Nat.eqb c col then v else cell_in rest row col
  end.
Definition cell (t : table) (row col : nat) : bytes := cell_in (tb_cells t) row col.

(** [xrange(self.row_count)]. *)
Definition row_numbers (t : table) : res (list nat) :=
  match tb_rows t with
  | None => Err TypeError
  | Some n => Ok (seq 0 (Z.to_nat n))
  end.

(** [max(l)]. *)
Definition py_max (l : list Z) : res Z :=
  match l with [] => Err ValueError | x :: r => Ok (fold_left Z.max r x) end.

(** ascii_tables.py:117-118, 123-124: the widths. *)
Definition column_width (t : table) (i : nat) : res Z :=
  do rows <- row_numbers t;
  py_max (map (fun r => Z.of_nat (List.length (cell t r i))) rows).
Fixpoint map_res {A B} (f : A -> res B) (l : list A) : res (list B) :=
  match l with
  | [] => Ok []
  | x :: r => do y <- f x; do ys <- map_res f r; Ok (y :: ys)
  end.

Definition sum_z (l : list Z) : Z := fold_right Z.add 0 l.

(** [self.columns[i].right_padding] for [i] from [col] on, [span] times. *)
Fixpoint paddings (columns : list column) (col span : nat) : res (list Z) :=
  match span with
  | O => Ok []
  | S n =>
      match nth_error columns col with
      | None => Err IndexError
      | Some c => do r <- paddings columns (S col) n; Ok (col_padding c :: r)
      end
  end.

(** [widths[col] += n]. *)
Fixpoint widen (widths : list Z) (col : nat) (n : Z) : res (list Z) :=
  match widths, col with
  | [], _ => Err IndexError
  | w :: r, O => Ok (w + n :: r)
  | w :: r, S c => do r' <- widen r c n; Ok (w :: r')
  end.

(** ascii_tables.py:125-138: the headings, and the widths they leave. *)
Fixpoint heading_loop (columns : list column) (headings : list (bytes * nat)) (col : nat) (widths : list Z)
  : res (list Z * list bytes) :=
  match headings with
  | [] => Ok (widths, [])
  | (heading, span) :: rest =>
      do pads <- paddings columns col span;
      let width := sum_z (firstn span (skipn col widths)) + sum_z pads - 1 in
      let shortfall := Z.of_nat (List.length heading) - width in
      if 0 <? shortfall then
        do widths' <- widen widths col shortfall;
        do (ws, line) <- heading_loop columns rest (col + span) widths';
        Ok (ws, ljust heading (width + shortfall) :: line)
      else
        do (ws, line) <- heading_loop columns rest (col + span) widths;
        Ok (ws, ljust heading width :: line)
  end.

(** ascii_tables.py:142-144: one row, before [rstrip]. *)
Fixpoint row_text (t : table) (row col : nat) (l : list (column * Z)) : bytes :=
  match l with
  | [] => []
  | (c, width) :: r => render_cell c (cell t row col) width ++ row_text t row (S col) r
  end.

(** ascii_tables.py:108-148 [render]. *)
Definition render (t : table) : res (list bytes) :=
  do widths <- map_res (column_width t) (seq 0 (List.length (tb_columns t)));
  do (ws, heading_line) <- heading_loop (tb_columns t) (tb_headings t) 0 widths;
  let heading := rstrip (join [" "%char] heading_line) in
  do rows <- row_numbers t;
  Ok (heading ::
      filter (fun line => match line with [] => false | _ => true end)
             (map (fun r => rstrip (row_text t r 0 (combine (tb_columns t) ws))) rows)).
