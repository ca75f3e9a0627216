From Verif Require Import Base Bytes PyStr GtpModel GtpProofs TableModel TableSpec TableProofs.

Lemma row_text_snoc t r x : forall l c,
  row_text t r c (l ++ [x]) = row_text t r c l ++ render_cell (fst x) (cell t r (c + List.length l)) (snd x).
Proof.
  induction l as [|[a w] l IH]; intros c.
  - destruct x as [a w]. simpl. rewrite Nat.add_0_r, app_nil_r. reflexivity.
  - cbn [app row_text List.length]. rewrite IH, <- app_assoc.
    replace (S c + List.length l)%nat with (c + S (List.length l))%nat by lia. reflexivity.
Qed.

Lemma firstn_snoc {A} (l : list A) k x : nth_error l k = Some x -> firstn (S k) l = firstn k l ++ [x].
Proof.
  revert k. induction l as [|a l IH]; intros [|k] E; simpl in *; try discriminate.
  - injection E as ->. reflexivity.
  - rewrite (IH k E). reflexivity.
Qed.

Lemma combine_nth_error {A B} (a : list A) (b : list B) k x y :
  nth_error a k = Some x -> nth_error b k = Some y -> nth_error (combine a b) k = Some (x, y).
Proof.
  revert b k. induction a as [|a0 a IH]; intros [|b0 b] [|k] E1 E2; simpl in *; try discriminate.
  - congruence.
  - apply IH; assumption.
Qed.

Lemma forall2_snoc {A B} (P : A -> B -> Prop) l m x y : Forall2 P l m -> P x y -> Forall2 P (l ++ [x]) (m ++ [y]).
Proof. intros F H. apply Forall2_app; [exact F|]. constructor; [exact H|constructor]. Qed.

Lemma render_cell_length c s w : col_align c <> AOther -> (List.length s <= Z.to_nat w)%nat ->
  List.length (render_cell c s w) = (Z.to_nat w + Z.to_nat (col_padding c))%nat.
Proof.
  intros A L. unfold render_cell, ljust, rjust.
  destruct (col_align c); [| |congruence]; rewrite !app_length, !repeat_length; lia.
Qed.

Lemma row_placed t ws r : Forall (fun c => col_align c <> AOther) (tb_columns t) ->
  List.length ws = List.length (tb_columns t) ->
  (forall i, (i < List.length ws)%nat -> (List.length (cell t r i) <= wd ws i)%nat) ->
  forall k, (k <= List.length ws)%nat ->
  let txt := row_text t r 0 (firstn k (combine (tb_columns t) ws)) in
  List.length txt = start (padding_of t) (wd ws) k /\
  exists items, Forall2 (fun i it => snd it = cell t r i /\ cell_place t (wd ws) r i (fst it)) (seq 0 k) items /\
    placed items txt.
Proof.
  intros FA LW FIT. induction k as [|k IH]; intros K.
  - simpl. split; [reflexivity|]. exists []. split; [constructor|apply placed_nil].
  - destruct IH as (LT & items & F & PL); [lia|].
    destruct (nth_error (tb_columns t) k) as [c|] eqn:C; [|apply nth_error_None in C; lia].
    destruct (nth_error ws k) as [w|] eqn:W; [|apply nth_error_None in W; lia].
    assert (WK : wd ws k = Z.to_nat w) by (unfold wd; rewrite (nth_error_nth ws k 0 W); reflexivity).
    assert (AC : col_align c <> AOther) by (rewrite Forall_forall in FA; apply FA; eapply nth_error_In; exact C).
    assert (PK : padding_of t k = Z.to_nat (col_padding c)) by (unfold padding_of; rewrite C; reflexivity).
    assert (LC := FIT k ltac:(lia)). rewrite WK in LC.
    cbv zeta. rewrite (firstn_snoc _ k (c, w)) by (apply combine_nth_error; assumption).
    rewrite row_text_snoc. rewrite firstn_length_le by (rewrite combine_length; lia).
    cbn [fst snd]. replace (0 + k)%nat with k by lia. set (txt := row_text t r 0 (firstn k (combine (tb_columns t) ws))) in *.
    split.
    + rewrite app_length, render_cell_length by assumption. cbn [start]. rewrite LT, WK, PK. lia.
    + rewrite seq_S. replace (0 + k)%nat with k by lia. unfold render_cell. destruct (col_align c) eqn:AL; [| |congruence].
      * exists (items ++ [(List.length txt, cell t r k)]). split.
        -- apply forall2_snoc; [exact F|]. cbn [fst snd]. split; [reflexivity|]. right. split; [|exact LT].
           intros (c' & E & A). assert (c = c') by congruence. congruence.
        -- unfold ljust. rewrite app_assoc. apply placed_blank. rewrite app_assoc. apply placed_blank. apply placed_add. exact PL.
      * unfold rjust. set (n := Z.to_nat (w - Z.of_nat (List.length (cell t r k)))).
        exists (items ++ [(List.length (txt ++ repeat " "%char n), cell t r k)]). split.
        -- apply forall2_snoc; [exact F|]. cbn [fst snd]. split; [reflexivity|]. left. split.
           ++ exists c. split; assumption.
           ++ rewrite app_length, repeat_length, LT, WK. unfold n. lia.
        -- rewrite !app_assoc. apply placed_blank. apply placed_add. apply placed_blank. exact PL.
Qed.

Lemma rstrip_blank s : rstrip (s ++ [" "%char]) = rstrip s.
Proof. unfold rstrip. rewrite rev_app_distr. reflexivity. Qed.

Definition wide (l : list bytes) : bytes := List.concat (map (fun x => x ++ [" "%char]) l).

Lemma join_wide l : rstrip (join [" "%char] l) = rstrip (wide l).
Proof.
  destruct l as [|x l]; [reflexivity|]. rewrite <- rstrip_blank. f_equal.
  revert x. induction l as [|y l IH]; intros x; [unfold wide; simpl; rewrite app_nil_r; reflexivity|].
  unfold wide. cbn [map List.concat]. change (List.concat (map (fun x => x ++ [" "%char]) l)) with (wide l).
  specialize (IH y). unfold wide in IH. cbn [map List.concat] in IH.
  change (join [" "%char] (x :: y :: l)) with (x ++ [" "%char] ++ join [" "%char] (y :: l)).
  rewrite <- !app_assoc. rewrite IH. unfold wide. rewrite <- !app_assoc. reflexivity.
Qed.

Lemma first_column_S hs : forall k h span, nth_error hs k = Some (h, span) ->
  first_column hs (S k) = (first_column hs k + span)%nat.
Proof.
  induction hs as [|[h0 s0] hs IH]; intros [|k] h span E; simpl in E; try discriminate.
  - injection E as -> ->. simpl. destruct hs as [|[? ?] ?]; simpl; lia.
  - cbn [first_column]. specialize (IH k h span E). cbn [first_column] in IH. rewrite IH. lia.
Qed.

Lemma forall2_nth {A B} (P : A -> B -> Prop) l m : Forall2 P l m -> forall k x, nth_error l k = Some x ->
  exists y, nth_error m k = Some y /\ P x y.
Proof.
  induction 1 as [|a b l m H F IH]; intros [|k] x E; simpl in *; try discriminate.
  - injection E as ->. exists b. split; [reflexivity|exact H].
  - apply IH. exact E.
Qed.

Lemma Forall2_length {A B} (P : A -> B -> Prop) l m : Forall2 P l m -> List.length l = List.length m.
Proof. induction 1; simpl; congruence. Qed.

Lemma nth_error_seq n k : (k < n)%nat -> nth_error (seq 0 n) k = Some k.
Proof.
  intros H. rewrite (nth_error_nth' (seq 0 n) O) by (rewrite seq_length; exact H). rewrite seq_nth by exact H. reflexivity.
Qed.

Lemma headings_placed t ws lines :
  Forall2 (fun k line => exists h, nth_error (tb_headings t) k = Some h /\
             heading_fits (tb_columns t) ws (0 + first_column (tb_headings t) k) h line)
          (seq 0 (List.length (tb_headings t))) lines ->
  forall k, (k <= List.length (tb_headings t))%nat ->
  let txt := wide (firstn k lines) in
  List.length txt = start (padding_of t) (wd ws) (first_column (tb_headings t) k) /\
  exists items, Forall2 (fun k it => exists span, nth_error (tb_headings t) k = Some (snd it, span) /\
                       fst it = start (padding_of t) (wd ws) (first_column (tb_headings t) k)) (seq 0 k) items /\
    placed items txt.
Proof.
  intros F2. induction k as [|k IH]; intros K.
  - simpl. split; [destruct (tb_headings t) as [|[? ?] ?]; reflexivity|]. exists []. split; [constructor|apply placed_nil].
  - destruct IH as (LT & items & F & PL); [lia|].
    destruct (forall2_nth _ _ _ F2 k k (nth_error_seq (List.length (tb_headings t)) k ltac:(lia))) as (line & EL & [h span] & EH & n & ST & LE & EQ).
    cbn [fst snd] in *. rewrite Nat.add_0_l in ST.
    cbv zeta. rewrite (firstn_snoc _ k line EL). unfold wide. rewrite map_app, concat_app. cbn [map List.concat]. rewrite app_nil_r.
    change (List.concat (map (fun x => x ++ [" "%char]) (firstn k lines))) with (wide (firstn k lines)).
    set (txt := wide (firstn k lines)) in *. subst line. unfold ljust. rewrite (first_column_S _ _ _ _ EH). split.
    + rewrite !app_length, repeat_length. cbn [List.length]. rewrite LT.
      change (pd (tb_columns t)) with (padding_of t) in ST. rewrite ST. lia.
    + rewrite seq_S. replace (0 + k)%nat with k by lia. exists (items ++ [(List.length txt, h)]). split.
      * apply forall2_snoc; [exact F|]. cbn [fst snd]. exists span. split; [exact EH|exact LT].
      * rewrite !app_assoc. change [" "%char] with (repeat " "%char 1). apply placed_blank. apply placed_blank. apply placed_add. exact PL.
Qed.

Lemma filter_concat l : filter (fun line : bytes => match line with [] => false | _ => true end) l =
  List.concat (map (fun line => match line with [] => [] | _ => [line] end) l).
Proof. induction l as [|[|c x] l IH]; simpl; [reflexivity|exact IH|rewrite IH; reflexivity]. Qed.

Lemma forall2_seq {A} (P : nat -> A -> Prop) (f : nat -> A) n : (forall i, (i < n)%nat -> P i (f i)) ->
  Forall2 P (seq 0 n) (map f (seq 0 n)).
Proof.
  intros H. assert (G : forall l, (forall i, In i l -> (i < n)%nat) -> Forall2 P l (map f l)).
  { induction l as [|i l IH]; intros L; simpl; constructor; [apply H, L; left; reflexivity|apply IH; intros; apply L; right; assumption]. }
  apply G. intros i I. apply in_seq in I. lia.
Qed.

(** The widths and the lines, for a complete and proper table. *)
Lemma render_parts t : complete t -> proper t -> exists ws lines,
  render t = Ok (rstrip (wide lines) ::
    filter (fun line : bytes => match line with [] => false | _ => true end)
      (map (fun r => rstrip (row_text t r 0 (combine (tb_columns t) ws))) (seq 0 (rows_of t)))) /\
  List.length ws = List.length (tb_columns t) /\
  Forall2 (fun k line => exists h, nth_error (tb_headings t) k = Some h /\
             heading_fits (tb_columns t) ws (0 + first_column (tb_headings t) k) h line)
          (seq 0 (List.length (tb_headings t))) lines /\
  (forall r i, (r < rows_of t)%nat -> (i < List.length ws)%nat -> (List.length (cell t r i) <= wd ws i)%nat) /\
  fitting t (wd ws).
Proof.
  intros [(z & R & Z0) CV] [FC FS].
  assert (FP : Forall (fun c => 0 <= col_padding c) (tb_columns t)) by (eapply Forall_impl; [|exact FC]; intros a [_ H]; exact H).
  destruct (map_res_ok (column_width t) (seq 0 (List.length (tb_columns t)))) as (ws0 & E0 & F0).
  { intros i I. destruct Z0 as [Z0|Z0]; [rewrite Z0 in I; destruct I|]. apply (column_width_ok t i z R Z0). }
  assert (L0 : List.length ws0 = List.length (tb_columns t)).
  { clear - F0. apply Forall2_length in F0. rewrite seq_length in F0. congruence. }
  assert (LG : forall i, (i < List.length (tb_columns t))%nat -> exists m, nth i ws0 0 = Z.of_nat m /\ longest t i m).
  { intros i Li. destruct (forall2_nth _ _ _ F0 i i (nth_error_seq _ i Li)) as (w & Ew & Hw).
    destruct (column_width_longest t i w Hw) as (m & -> & LG). exists m. split; [|exact LG]. apply (nth_error_nth ws0 i 0 Ew). }
  assert (N0 : Forall (fun w => 0 <= w) ws0).
  { apply nonneg_nth. intros i. destruct (le_lt_dec (List.length ws0) i) as [L|L]; [rewrite nth_overflow by exact L; lia|].
    destruct (LG i) as (m & E & _); [congruence|]. lia. }
  destruct (heading_loop_ok (tb_columns t) FP (tb_headings t) O ws0 FS CV N0 L0) as (ws & lines & E & LW & NW & F2 & _ & WID).
  assert (GE : forall i m, (i < List.length (tb_columns t))%nat -> nth i ws0 0 = Z.of_nat m -> (m <= wd ws i)%nat).
  { intros i m Li Em. unfold wd. destruct (WID i) as [W|(W & _)]; lia. }
  exists ws, lines. split; [|split; [exact LW|split; [exact F2|split]]].
  - unfold render. rewrite E0. cbn [bind]. rewrite E. cbn [bind]. unfold row_numbers, rows_of. rewrite R. cbn [bind].
    rewrite join_wide. reflexivity.
  - intros r i Lr Li. rewrite LW in Li. destruct (LG i Li) as (m & Em & LGm & _). specialize (LGm r Lr).
    specialize (GE i m Li Em). lia.
  - split.
    + intros k h span EH c. destruct (forall2_nth _ _ _ F2 k k (nth_error_seq (List.length (tb_headings t)) k ltac:(apply nth_error_Some; congruence)))
        as (line & _ & h' & EH' & n & ST & LE & _).
      assert (h' = (h, span)) by congruence. subst h'. cbn [fst snd] in *. rewrite Nat.add_0_l in ST.
      change (pd (tb_columns t)) with (padding_of t) in ST. fold c in ST. lia.
    + intros i Li. destruct (LG i Li) as (m & Em & LGm). exists m. split; [exact LGm|].
      destruct (WID i) as [W|(W & k & h & span & EH & EI & ST)].
      * left. unfold wd. lia.
      * right. split; [unfold wd; lia|]. exists k, h, span. split; [exact EH|]. split; [rewrite Nat.add_0_l in EI; exact EI|].
        change (pd (tb_columns t)) with (padding_of t) in ST. exact ST.
Qed.

Lemma render_proof t : complete t -> proper t -> exists lines, render t = Ok lines /\ rendering t lines.
Proof.
  intros C P. destruct (render_parts t C P) as (ws & hl & E & LW & F2 & FIT & FT).
  destruct P as [FC FS].
  assert (FA : Forall (fun c => col_align c <> AOther) (tb_columns t)) by (eapply Forall_impl; [|exact FC]; intros a [H _]; exact H).
  eexists. split; [exact E|].
  destruct (headings_placed t ws hl F2 (List.length (tb_headings t)) (Nat.le_refl _)) as (_ & items & HI & HP).
  assert (LL : List.length hl = List.length (tb_headings t)) by (apply Forall2_length in F2; rewrite seq_length in F2; congruence).
  cbv zeta in HP. rewrite <- LL, firstn_all in HP.
  exists (wd ws), items, (wide hl), (rstrip (wide hl)),
    (map (fun r => match rstrip (row_text t r 0 (combine (tb_columns t) ws)) with [] => [] | c :: s => [c :: s] end) (seq 0 (rows_of t))).
  split; [exact FT|]. split; [exact HI|]. split; [exact HP|]. split; [apply rstrip_trimmed|]. split.
  - apply forall2_seq. intros r Lr.
    destruct (row_placed t ws r FA LW (fun i => FIT r i Lr) (List.length ws) (Nat.le_refl _)) as (_ & its & RI & RP).
    cbv zeta in RP. rewrite firstn_all2 in RP by (rewrite combine_length; lia).
    exists its, (row_text t r 0 (combine (tb_columns t) ws)), (rstrip (row_text t r 0 (combine (tb_columns t) ws))).
    split; [unfold row_items; rewrite <- LW; exact RI|]. split; [exact RP|]. split; [apply rstrip_trimmed|].
    cbv beta; destruct (rstrip (row_text t r 0 (combine (tb_columns t) ws))) as [|c s]; [left|right]; split; (reflexivity || discriminate).
  - f_equal. rewrite filter_concat, map_map. f_equal. apply map_ext. intros r.
    destruct (rstrip (row_text t r 0 (combine (tb_columns t) ws))); reflexivity.
Qed.

(** ** When rendering fails *)
Lemma heading_loop_short cols : forall hs col ws,
  Forall (fun h => (1 <= snd h)%nat) hs -> List.length ws = List.length cols -> (List.length cols < col + covered hs)%nat ->
  (col <= List.length cols)%nat ->
  heading_loop cols hs col ws = Err IndexError.
Proof.
  induction hs as [|[h span] hs IH]; intros col ws FS LW CV LC.
  - simpl in CV. lia.
  - inversion FS as [|x y S1 FS']; subst. simpl in S1, CV. cbn [heading_loop].
    destruct (le_lt_dec (col + span) (List.length cols)) as [L|L].
    + assert (EP : exists pads, paddings cols col span = Ok pads).
      { clear - L. revert col L. induction span as [|n IHn]; intros col L; [exists []; reflexivity|]. simpl.
        destruct (nth_error cols col) eqn:C; [|apply nth_error_None in C; lia].
        destruct (IHn (S col)) as (p & ->); [lia|]. eexists. reflexivity. }
      destruct EP as (pads & ->). cbn [bind]. cbv zeta.
      match goal with |- context [0 <? ?z] => destruct (0 <? z) end.
      * match goal with |- context [widen ws col ?n] => destruct (widen_ok ws col n) as (ws1 & -> & L1 & _) end; [lia|].
        cbn [bind]. rewrite IH; [reflexivity|exact FS'|congruence|unfold covered in *; lia|lia].
      * rewrite IH; [reflexivity|exact FS'|exact LW|unfold covered in *; lia|lia].
    + rewrite paddings_short by lia. reflexivity.
Qed.

Lemma heading_loop_result cols : forall hs col ws,
  Forall (fun h => (1 <= snd h)%nat) hs -> List.length ws = List.length cols -> (col + covered hs <= List.length cols)%nat ->
  exists x, heading_loop cols hs col ws = Ok x.
Proof.
  induction hs as [|[h span] hs IH]; intros col ws FS LW CV.
  - eexists. reflexivity.
  - inversion FS as [|x y S1 FS']; subst. simpl in S1, CV. cbn [heading_loop].
    assert (EP : exists pads, paddings cols col span = Ok pads).
    { assert (L : (col + span <= List.length cols)%nat) by lia. clear - L. revert col L. induction span as [|n IHn]; intros col L; [exists []; reflexivity|]. simpl.
      destruct (nth_error cols col) eqn:C; [|apply nth_error_None in C; lia].
      destruct (IHn (S col)) as (p & ->); [lia|]. eexists. reflexivity. }
    destruct EP as (pads & ->). cbn [bind]. cbv zeta.
    match goal with |- context [0 <? ?z] => destruct (0 <? z) end.
    + match goal with |- context [widen ws col ?n] => destruct (widen_ok ws col n) as (ws1 & -> & L1 & _) end; [lia|].
      cbn [bind]. destruct (IH (col + span)%nat ws1 FS') as ([a b] & ->); [congruence|unfold covered in *; lia|]. eexists. reflexivity.
    + destruct (IH (col + span)%nat ws FS') as ([a b] & ->); [congruence|unfold covered in *; lia|]. eexists. reflexivity.
Qed.

Lemma render_fails t : headings_span t -> ~ complete t ->
  render t = Err (match tb_rows t with
                  | None => match tb_columns t, tb_headings t with [], _ :: _ => IndexError | _, _ => TypeError end
                  | Some z => if (z <=? 0) && negb (Nat.eqb (List.length (tb_columns t)) 0) then ValueError else IndexError
                  end).
Proof.
  intros FS NC. unfold render. destruct (tb_rows t) as [z|] eqn:R.
  - destruct (z <=? 0) eqn:Z0.
    + apply Z.leb_le in Z0. destruct (tb_columns t) as [|c cs] eqn:CS.
      * cbn [List.length seq map_res bind Nat.eqb negb andb].
        rewrite heading_loop_short; [reflexivity|exact FS|reflexivity| |simpl; lia].
        destruct (le_lt_dec (covered (tb_headings t)) 0) as [L|L]; [|simpl; lia]. exfalso. apply NC. split.
        -- exists z. split; [exact R|left; exact CS]. -- rewrite CS. simpl. lia.
      * cbn [List.length seq map_res]. unfold column_width at 1, row_numbers. rewrite R. cbn [bind].
        replace (Z.to_nat z) with O by lia. reflexivity.
    + apply Z.leb_gt in Z0. cbn [andb].
      destruct (map_res_ok (column_width t) (seq 0 (List.length (tb_columns t)))) as (ws & E & F).
      { intros i _. apply (column_width_ok t i z R Z0). }
      rewrite E. cbn [bind]. apply Forall2_length in F. rewrite seq_length in F.
      rewrite heading_loop_short; [reflexivity|exact FS|congruence| |lia].
      destruct (le_lt_dec (covered (tb_headings t)) (List.length (tb_columns t))) as [L|L]; [|simpl; lia]. exfalso. apply NC. split.
      * exists z. split; [exact R|right; lia]. * exact L.
  - destruct (tb_columns t) as [|c cs] eqn:CS.
    + cbn [List.length seq map_res bind]. destruct (tb_headings t) as [|h hs] eqn:H.
      * cbn [heading_loop bind]. unfold row_numbers. rewrite R. reflexivity.
      * unfold headings_span in FS. rewrite H in FS. rewrite heading_loop_short; [reflexivity|exact FS|reflexivity| |simpl; lia].
        inversion FS as [|x y S1 S2]; subst. simpl. lia.
    + cbn [List.length seq map_res]. unfold column_width at 1, row_numbers. rewrite R. reflexivity.
Qed.

Lemma render_succeeds t : headings_span t -> complete t -> exists lines, render t = Ok lines.
Proof.
  intros FS [(z & R & Z0) CV]. unfold render.
  destruct (map_res_ok (column_width t) (seq 0 (List.length (tb_columns t)))) as (ws0 & E0 & F0).
  { intros i I. destruct Z0 as [Z0|Z0]; [rewrite Z0 in I; destruct I|]. apply (column_width_ok t i z R Z0). }
  rewrite E0. cbn [bind]. apply Forall2_length in F0. rewrite seq_length in F0.
  destruct (heading_loop_result (tb_columns t) (tb_headings t) O ws0 FS ltac:(congruence) CV) as ([a b] & ->). cbn [bind].
  unfold row_numbers. rewrite R. cbn [bind]. eexists. reflexivity.
Qed.
