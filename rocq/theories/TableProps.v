(** C65: text tables. *)
From Verif Require Import Base Bytes PyStr GtpModel TableModel TableSpec TableProofs TableMainProofs TableReadProofs TableUniqueProofs.

(** A table with rows and with headings for existing columns is rendered with its cells in
    aligned columns, under its headings. *)
Theorem C65_layout t : complete t -> proper t -> exists lines, render t = Ok lines /\ rendering t lines.
Proof. exact (render_proof t). Qed.
Print Assumptions C65_layout.

(** There is only one such rendering: [rendering] says everything about the lines. *)
Theorem C65_unique t a b : headings_span t -> complete t -> rendering t a -> rendering t b -> a = b.
Proof. exact (unique_proof t a b). Qed.
Print Assumptions C65_unique.

(** Exactly which tables can't be rendered, and the exceptions. *)
Theorem C65_errors t : headings_span t ->
  ((exists lines, render t = Ok lines) <-> complete t) /\
  (~ complete t ->
     render t = Err (match tb_rows t with
                     | None => match tb_columns t, tb_headings t with [], _ :: _ => IndexError | _, _ => TypeError end
                     | Some z => if (z <=? 0) && negb (Nat.eqb (List.length (tb_columns t)) 0) then ValueError else IndexError
                     end)).
Proof.
  intros H. split; [|exact (render_fails t H)]. split; [|exact (render_succeeds t H)].
  intros (lines & E). assert (D : complete t \/ ~ complete t).
  { unfold complete. destruct (tb_rows t) as [z|]; [|right; intros [(z & X & _) _]; discriminate].
    destruct (le_lt_dec (covered (tb_headings t)) (List.length (tb_columns t))) as [L|L]; [|right; intros [_ X]; lia].
    destruct (Z_lt_dec 0 z) as [P|P].
    - left. split; [|exact L]. exists z. split; [reflexivity|right; exact P].
    - destruct (tb_columns t) as [|c cs].
      + left. split; [|exact L]. exists z. split; [reflexivity|left; reflexivity].
      + right. intros [(z' & X & [Y|Y]) _]; [discriminate|]. injection X as <-. lia. }
  destruct D as [D|D]; [exact D|]. rewrite (render_fails t H D) in E. discriminate.
Qed.
Print Assumptions C65_errors.

(** The words of the first line are those of the headings, and the words of the other lines are the words of the cells of each row that has
    any, from left to right and top to bottom. *)
Theorem C65_read_back t lines : Forall (fun c => 1 <= col_padding c) (tb_columns t) -> render t = Ok lines ->
  exists title rows wss hss, lines = title :: rows /\
    Forall2 (fun h ws => reads (fst h) ws) (tb_headings t) hss /\ reads title (List.concat hss) /\
    Forall2 (row_reads t) (seq 0 (rows_of t)) wss /\
    Forall2 reads rows (filter (fun ws => match ws with [] => false | _ => true end) wss).
Proof.
  intros F E. destruct (read_back t lines F E) as (title & rows & EL & _ & M).
  exists title, rows. eexists. exists (map (fun h => split_ws (fst h)) (tb_headings t)).
  split; [exact EL|]. rewrite EL in E. split; [|split; [|split; [|rewrite <- M]]].
  - clear. induction (tb_headings t) as [|h hs IH]; simpl; constructor; [apply reads_total|exact IH].
  - rewrite <- (title_read t title rows E). apply reads_total.
  - apply forall2_seq. intros r _. exists (map (fun i => split_ws (cell t r i)) (seq 0 (List.length (tb_columns t)))).
    split; [|reflexivity]. apply forall2_seq. intros i _. apply reads_total.
  - clear. induction rows as [|x l IH]; simpl; constructor; [apply reads_total|exact IH].
Qed.
Print Assumptions C65_read_back.

(** Each line of a rendering is without white space at its end, and only the first can be
    empty. *)
Theorem C65_no_trailing_space t lines : render t = Ok lines ->
  Forall (fun l => forall u c, l = u ++ [c] -> ~ white c) lines /\ Forall (fun l => l <> []) (tl lines).
Proof.
  unfold render. destruct (map_res (column_width t) (seq 0 (List.length (tb_columns t)))) as [ws0|]; cbn [bind]; [|discriminate].
  destruct (heading_loop (tb_columns t) (tb_headings t) 0 ws0) as [[ws hl]|]; cbn [bind]; [|discriminate].
  destruct (row_numbers t) as [rows|]; cbn [bind]; [|discriminate]. intros E. injection E as <-.
  assert (T : forall s u c, rstrip s = u ++ [c] -> ~ white c) by (intros s; destruct (rstrip_trimmed s) as (? & _ & _ & N); exact N).
  split.
  - constructor; [apply T|]. apply Forall_forall. intros l I. apply filter_In in I. destruct I as [I _].
    apply in_map_iff in I. destruct I as (r & <- & _). apply T.
  - cbn [tl]. apply Forall_forall. intros l I. apply filter_In in I. destruct I as [_ I]. intros ->. discriminate.
Qed.
Print Assumptions C65_no_trailing_space.

(** What the cells are: the latest value given for the row and column. *)
Lemma put_values_cell col : forall values row cells r c,
  cell_in (put_values row col values cells) r c =
  if Nat.eqb c col && Nat.leb row r then
    match nth_error values (r - row) with Some v => v | None => cell_in cells r c end
  else cell_in cells r c.
Proof.
  induction values as [|v values IH]; intros row cells r c; cbn [put_values].
  - destruct (Nat.eqb c col && Nat.leb row r); [|reflexivity]. destruct (r - row)%nat; reflexivity.
  - rewrite IH. cbn [cell_in]. destruct (Nat.eqb_spec c col) as [->|N]; cbn [andb].
    + destruct (Nat.leb_spec row r) as [L|L].
      * destruct (Nat.leb_spec (S row) r) as [L2|L2].
        -- replace (r - row)%nat with (S (r - S row)) by lia. cbn [nth_error].
           destruct (nth_error values (r - S row)); [reflexivity|]. destruct (Nat.eqb_spec row r); [lia|reflexivity].
        -- replace (r - row)%nat with O by lia. cbn [nth_error]. destruct (Nat.eqb_spec row r); [|lia].
           rewrite Nat.eqb_refl. reflexivity.
      * destruct (Nat.leb_spec (S row) r) as [L2|L2]; [lia|]. destruct (Nat.eqb_spec row r); [lia|reflexivity].
    + destruct (Nat.eqb_spec row r); [|reflexivity]. destruct (Nat.eqb_spec col c); [congruence|reflexivity].
Qed.

Theorem C65_column_values t col values r c :
  (c <> col -> cell (set_column_values t col values) r c = cell t r c) /\
  (forall v, nth_error values r = Some v -> cell (set_column_values t col values) r col = v) /\
  (nth_error values r = None -> cell (set_column_values t col values) r col = cell t r col) /\
  (forall n, cell (new_table n) r c = []).
Proof.
  unfold cell, set_column_values. cbn [tb_cells]. rewrite !put_values_cell. rewrite Nat.eqb_refl, Nat.sub_0_r. cbn [andb Nat.leb].
  split; [|split; [|split]].
  - intros N. destruct (Nat.eqb_spec c col); [congruence|reflexivity].
  - intros v ->. reflexivity.
  - intros ->. reflexivity.
  - reflexivity.
Qed.
Print Assumptions C65_column_values.


(** Concrete tables. *)
Definition demo_table : table :=
  let t := add_heading (new_table (Some 3)) (str "name") 1 in
  let (t, i) := add_column t ALeft 2 in
  let t := set_column_values t i [str "alice"; str "bo"] in
  let t := add_heading t (str "games won") 2 in
  let (t, i) := add_column t ARight 1 in
  let t := set_column_values t i [str "7"; str "12"] in
  let (t, i) := add_column t ARight 1 in
  set_column_values t i [str "70%"; str "9%"].

Example C65_demo_complete : complete demo_table /\ proper demo_table.
Proof.
  split; [split|split].
  - exists 3. split; [reflexivity|right; reflexivity].
  - vm_compute. lia.
  - unfold demo_table. simpl. repeat constructor; discriminate.
  - unfold demo_table, headings_span. simpl. repeat constructor.
Qed.

Example C65_demo_render : render demo_table = Ok (map str
  ["name   games won";
   "alice      7 70%";
   "bo        12  9%"]%string).
Proof. vm_compute. reflexivity. Qed.

(** Findings: a blank line of headings isn't omitted; giving fewer values again leaves the old
    ones; a table without rows can't be rendered. *)
Example C65_finding_blank_first_line :
  let (t, i) := add_column (new_table (Some 1)) ALeft 1 in
  render (set_column_values t i [str "x"]) = Ok [[]; str "x"].
Proof. vm_compute. reflexivity. Qed.

Example C65_finding_old_values :
  let (t, i) := add_column (new_table (Some 2)) ALeft 1 in
  render (set_column_values (set_column_values t i [str "x"; str "y"]) i [str "z"]) = Ok [[]; str "z"; str "y"].
Proof. vm_compute. reflexivity. Qed.

Example C65_finding_no_rows : render (fst (add_column (new_table (Some 0)) ALeft 1)) = Err ValueError.
Proof. vm_compute. reflexivity. Qed.
