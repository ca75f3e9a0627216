From Verif Require Import Base Bytes PyStr GtpModel GtpProofs TableModel TableSpec.

Lemma lstrip_split s : exists ws, s = ws ++ lstrip s /\ Forall white ws /\
  (forall c r, lstrip s = c :: r -> ~ white c).
Proof.
  induction s as [|c s IH]; simpl.
  - exists []. repeat split; [constructor|]. discriminate.
  - destruct (is_space c) eqn:S.
    + destruct IH as (ws & E & F & N). exists (c :: ws). repeat split; [simpl; congruence| |exact N].
      constructor; assumption.
    + exists []. repeat split; [constructor|]. intros c' r E. injection E as <- <-. unfold white. congruence.
Qed.

Lemma rstrip_trimmed s : trimmed s (rstrip s).
Proof.
  unfold rstrip. destruct (lstrip_split (rev s)) as (ws & E & F & N).
  exists (rev ws). repeat split.
  - rewrite <- rev_app_distr, <- E, rev_involutive. reflexivity.
  - apply Forall_rev. exact F.
  - intros u c E2. apply (N c (rev u)). rewrite <- (rev_involutive (lstrip _)), E2, rev_app_distr. reflexivity.
Qed.

Lemma trimmed_fun full a b : trimmed full a -> trimmed full b -> a = b.
Proof.
  assert (W : forall (x : bytes) y u v, x ++ u = y ++ v -> Forall white u ->
    (forall p c, y = p ++ [c] -> ~ white c) -> (List.length y <= List.length x)%nat).
  { intros x y u v E F N. destruct (le_lt_dec (List.length y) (List.length x)) as [L|L]; [exact L|exfalso].
    assert (H : exists m, y = x ++ m /\ u = m ++ v).
    { exists (skipn (List.length x) y).
      assert (P : firstn (List.length x) (x ++ u) = firstn (List.length x) (y ++ v)) by (rewrite E; reflexivity).
      assert (Q : skipn (List.length x) (x ++ u) = skipn (List.length x) (y ++ v)) by (rewrite E; reflexivity).
      rewrite firstn_app, firstn_all, Nat.sub_diag, firstn_O, app_nil_r, firstn_app in P.
      rewrite skipn_app, skipn_all, Nat.sub_diag, skipn_O, skipn_app in Q.
      replace (List.length x - List.length y)%nat with O in P, Q by lia. simpl in P, Q. rewrite app_nil_r in P. split.
      - rewrite P at 1. symmetry. apply firstn_skipn.
      - exact Q. }
    destruct H as (m & E1 & E2). destruct (exists_last (l := m)) as (m' & c & Em).
    - intros ->. rewrite app_nil_r in E1. subst y. lia.
    - apply (N (x ++ m') c). + rewrite E1, Em, app_assoc. reflexivity.
      + rewrite Forall_forall in F. apply F. rewrite E2, Em. rewrite !in_app_iff. simpl. tauto. }
  intros (u & E1 & F1 & N1) (v & E2 & F2 & N2).
  assert (L1 := W a b u v (eq_trans (eq_sym E1) E2) F1 N2).
  assert (L2 := W b a v u (eq_trans (eq_sym E2) E1) F2 N1).
  assert (P : firstn (List.length a) (a ++ u) = firstn (List.length a) (b ++ v)) by congruence.
  replace (List.length a) with (List.length b) in P at 2 by lia.
  rewrite !firstn_app, !firstn_all, !Nat.sub_diag, !firstn_O, !app_nil_r in P. exact P.
Qed.

(** ** Placing texts *)
Lemma placed_nil : placed [] [].
Proof. split; [intros ? ? ? []|]. intros [|p] c E; discriminate. Qed.

Lemma placed_blank its full n : placed its full -> placed its (full ++ repeat " "%char n).
Proof.
  intros [A B]. split.
  - intros p s k I L. pose proof (A p s k I L) as H.
    destruct (nth_error s k) eqn:E; [|apply nth_error_None in E; lia].
    rewrite nth_error_app1; [exact H|]. apply nth_error_Some. congruence.
  - intros p c E. destruct (le_lt_dec (List.length full) p) as [L|L].
    + rewrite nth_error_app2 in E by exact L. left. apply nth_error_In in E. apply repeat_spec in E. exact E.
    + rewrite nth_error_app1 in E by exact L. apply B. exact E.
Qed.

Lemma placed_add its full s : placed its full -> placed (its ++ [(List.length full, s)]) (full ++ s).
Proof.
  intros [A B]. split.
  - intros p x k I L. apply in_app_or in I. destruct I as [I|[I|[]]].
    + pose proof (A p x k I L) as H. destruct (nth_error x k) eqn:E; [|apply nth_error_None in E; lia].
      rewrite nth_error_app1; [exact H|]. apply nth_error_Some. congruence.
    + injection I as <- <-. rewrite nth_error_app2 by lia. f_equal. lia.
  - intros p c E. destruct (le_lt_dec (List.length full) p) as [L|L].
    + right. exists (List.length full), s. split; [apply in_or_app; right; left; reflexivity|].
      assert (p < List.length (full ++ s))%nat by (apply nth_error_Some; congruence). rewrite app_length in *. lia.
    + rewrite nth_error_app1 in E by exact L. destruct (B p c E) as [H|(q & x & I & H)]; [left; exact H|right].
      exists q, x. split; [apply in_or_app; left; exact I|exact H].
Qed.

(** ** Widths *)
Lemma fold_max_spec l : forall x, x <= fold_left Z.max l x /\ (forall y, In y l -> y <= fold_left Z.max l x) /\
  (fold_left Z.max l x = x \/ In (fold_left Z.max l x) l).
Proof.
  induction l as [|a l IH]; intros x; simpl.
  - repeat split; [lia|intros y []|left; reflexivity].
  - destruct (IH (Z.max x a)) as (A & B & C). repeat split; [lia| |].
    + intros y [<-|I]; [lia|apply B; exact I].
    + destruct C as [C|C]; [|right; right; exact C].
      destruct (Z.max_spec x a) as [[H E]|[H E]]; rewrite E in *; [right; left; congruence|left; congruence].
Qed.

Lemma py_max_spec l m : py_max l = Ok m -> In m l /\ forall y, In y l -> y <= m.
Proof.
  destruct l as [|x l]; simpl; [discriminate|]. intros E. injection E as <-.
  destruct (fold_max_spec l x) as (A & B & C). split.
  - destruct C as [C|C]; [left; congruence|right; exact C].
  - intros y [<-|I]; [exact A|apply B; exact I].
Qed.

Lemma map_res_ok {A B} (f : A -> res B) l : (forall x, In x l -> exists y, f x = Ok y) ->
  exists ys, map_res f l = Ok ys /\ Forall2 (fun x y => f x = Ok y) l ys.
Proof.
  induction l as [|x l IH]; intros H; simpl.
  - exists []. split; [reflexivity|constructor].
  - destruct (H x (or_introl eq_refl)) as (y & E). destruct IH as (ys & E2 & F).
    + intros z I. apply H. right. exact I.
    + exists (y :: ys). rewrite E. simpl. rewrite E2. split; [reflexivity|constructor; assumption].
Qed.

Lemma column_width_longest t i m : column_width t i = Ok m -> exists k, m = Z.of_nat k /\ longest t i k.
Proof.
  unfold column_width, row_numbers, longest, rows_of. destruct (tb_rows t) as [z|]; simpl; [|discriminate].
  intros E. apply py_max_spec in E. destruct E as [I M]. apply in_map_iff in I. destruct I as (r & <- & I).
  exists (List.length (cell t r i)). split; [reflexivity|]. apply in_seq in I. split.
  - intros q Q. specialize (M (Z.of_nat (List.length (cell t q i)))).
    assert (Z.of_nat (List.length (cell t q i)) <= Z.of_nat (List.length (cell t r i))); [|lia].
    apply M. apply in_map_iff. exists q. split; [reflexivity|]. apply in_seq. lia.
  - exists r. split; [lia|reflexivity].
Qed.

Lemma column_width_ok t i z : tb_rows t = Some z -> 0 < z -> exists m, column_width t i = Ok m.
Proof.
  intros R P. unfold column_width, row_numbers. rewrite R. simpl.
  destruct (Z.to_nat z) as [|n] eqn:N; [lia|]. simpl. eexists. reflexivity.
Qed.

(** ** Headings *)
Definition wd (ws : list Z) (i : nat) : nat := Z.to_nat (nth i ws 0).
Definition pd (cols : list column) (i : nat) : nat :=
  match nth_error cols i with Some c => Z.to_nat (col_padding c) | None => O end.

Lemma start_ext pad w w' n : (forall i, (i < n)%nat -> w i = w' i) -> start pad w n = start pad w' n.
Proof.
  induction n as [|n IH]; simpl; intros H; [reflexivity|]. rewrite IH by (intros; apply H; lia). rewrite H by lia. reflexivity.
Qed.

Lemma start_mono pad w i n : (start pad w i <= start pad w (i + n))%nat.
Proof.
  induction n as [|n IH]; [rewrite Nat.add_0_r; lia|]. rewrite Nat.add_succ_r. simpl. lia.
Qed.

Lemma start_diff_ext pad w w' i n : (forall j, (i <= j < i + n)%nat -> w j = w' j) ->
  (start pad w (i + n) + start pad w' i = start pad w' (i + n) + start pad w i)%nat.
Proof.
  induction n as [|n IH]; intros H; [rewrite Nat.add_0_r; lia|]. rewrite Nat.add_succ_r. simpl.
  rewrite (H (i + n)%nat) by lia. assert (start pad w (i + n) + start pad w' i = start pad w' (i + n) + start pad w i)%nat.
  { apply IH. intros; apply H; lia. } lia.
Qed.

Lemma paddings_ok cols : forall span col, (col + span <= List.length cols)%nat ->
  Forall (fun c => 0 <= col_padding c) cols -> exists pads, paddings cols col span = Ok pads /\
  forall ws, Forall (fun w => 0 <= w) ws -> List.length ws = List.length cols ->
    sum_z (firstn span (skipn col ws)) + sum_z pads =
    Z.of_nat (start (pd cols) (wd ws) (col + span)) - Z.of_nat (start (pd cols) (wd ws) col).
Proof.
  induction span as [|n IH]; intros col L F.
  - exists []. split; [reflexivity|]. intros ws _ _. simpl. rewrite Nat.add_0_r. lia.
  - destruct (IH (S col)) as (pads & E & H); [lia|exact F|]. simpl.
    destruct (nth_error cols col) as [c|] eqn:C; [|apply nth_error_None in C; lia].
    rewrite E. simpl. exists (col_padding c :: pads). split; [reflexivity|]. intros ws G LW.
    specialize (H ws G LW). rewrite Nat.add_succ_r. rewrite Nat.add_succ_l in H.
    assert (S : exists w, nth_error ws col = Some w).
    { destruct (nth_error ws col) as [w|] eqn:X; [exists w; reflexivity|]. apply nth_error_None in X. lia. }
    destruct S as (w & Ew).
    assert (SK : skipn col ws = w :: skipn (S col) ws).
    { clear - Ew. revert ws Ew. induction col as [|k IHk]; intros [|x ws] E; simpl in *; try discriminate.
      - injection E as ->. reflexivity.
      - apply IHk. exact E. }
    rewrite SK. cbn [firstn]. cbn [sum_z fold_right]. cbn [sum_z] in H. cbn [start] in H.
    assert (0 <= w) by (rewrite Forall_forall in G; apply G; eapply nth_error_In; exact Ew).
    assert (0 <= col_padding c) by (rewrite Forall_forall in F; apply F; eapply nth_error_In; exact C).
    assert (W : wd ws col = Z.to_nat w) by (unfold wd; rewrite (nth_error_nth ws col 0 Ew); reflexivity).
    assert (P : pd cols col = Z.to_nat (col_padding c)) by (unfold pd; rewrite C; reflexivity).
    rewrite W, P in H. unfold sum_z in *. simpl. simpl in H. lia.
Qed.

Lemma paddings_short cols : forall span col, (List.length cols < col + span)%nat -> (0 < span)%nat ->
  paddings cols col span = Err IndexError.
Proof.
  induction span as [|n IH]; intros col L P; [lia|]. simpl.
  destruct (nth_error cols col) as [c|] eqn:C; [|reflexivity].
  assert (col < List.length cols)%nat by (apply nth_error_Some; congruence).
  rewrite IH by lia. reflexivity.
Qed.

Lemma widen_ok : forall ws col n, (col < List.length ws)%nat -> exists ws', widen ws col n = Ok ws' /\
  List.length ws' = List.length ws /\ nth col ws' 0 = nth col ws 0 + n /\
  (forall i, i <> col -> nth i ws' 0 = nth i ws 0).
Proof.
  induction ws as [|w ws IH]; intros col n L; [simpl in L; lia|]. destruct col as [|c]; simpl.
  - eexists. split; [reflexivity|]. repeat split. intros [|i] H; [congruence|reflexivity].
  - destruct (IH c n) as (ws' & E & L' & A & B); [simpl in L; lia|]. rewrite E. simpl.
    eexists. split; [reflexivity|]. simpl. repeat split; [congruence|exact A|].
    intros [|i] H; [reflexivity|]. apply B. congruence.
Qed.

Lemma nonneg_nth ws : (forall i, 0 <= nth i ws 0) <-> Forall (fun w => 0 <= w) ws.
Proof.
  split; intros H.
  - apply Forall_forall. intros w I. destruct (In_nth ws w 0 I) as (i & L & <-). apply H.
  - intros i. destruct (le_lt_dec (List.length ws) i) as [L|L].
    + rewrite nth_overflow by exact L. lia.
    + rewrite Forall_forall in H. apply H. apply nth_In. exact L.
Qed.

(** The headings from column [col] on, with final widths [ws]. *)
Definition heading_fits (cols : list column) (ws : list Z) (col : nat) (h : bytes * nat) (line : bytes) : Prop :=
  exists n, start (pd cols) (wd ws) (col + snd h) = (start (pd cols) (wd ws) col + n + 1)%nat /\
            (List.length (fst h) <= n)%nat /\ line = ljust (fst h) (Z.of_nat n).

Lemma heading_loop_ok cols : Forall (fun c => 0 <= col_padding c) cols -> forall hs col ws0,
  Forall (fun h => (1 <= snd h)%nat) hs -> (col + covered hs <= List.length cols)%nat ->
  Forall (fun w => 0 <= w) ws0 -> List.length ws0 = List.length cols ->
  exists ws lines, heading_loop cols hs col ws0 = Ok (ws, lines) /\
    List.length ws = List.length cols /\ Forall (fun w => 0 <= w) ws /\
    Forall2 (fun k line => exists h, nth_error hs k = Some h /\ heading_fits cols ws (col + first_column hs k) h line)
            (seq 0 (List.length hs)) lines /\
    (forall i, (i < col)%nat -> nth i ws 0 = nth i ws0 0) /\
    (forall i, nth i ws 0 = nth i ws0 0 \/
       nth i ws0 0 < nth i ws 0 /\ exists k h span, nth_error hs k = Some (h, span) /\
         i = (col + first_column hs k)%nat /\
         start (pd cols) (wd ws) (i + span) = (start (pd cols) (wd ws) i + List.length h + 1)%nat).
Proof.
  intros FP. induction hs as [|[h span] hs IH]; intros col ws0 FS CV NN LW.
  - exists ws0, []. simpl. repeat split; auto.
  - inversion FS as [|x y S1 FS']; subst. simpl in S1. simpl in CV.
    destruct (paddings_ok cols span col) as (pads & EP & HP); [lia|exact FP|].
    cbn [heading_loop]. rewrite EP. cbn [bind].
    set (width := sum_z (firstn span (skipn col ws0)) + sum_z pads - 1).
    assert (HW : width = Z.of_nat (start (pd cols) (wd ws0) (col + span)) - Z.of_nat (start (pd cols) (wd ws0) col) - 1)
      by (unfold width; rewrite (HP ws0 NN LW); lia).
    pose proof (start_mono (pd cols) (wd ws0) col span) as SM.
    assert (FIN : forall ws1 wid, Forall (fun w => 0 <= w) ws1 -> List.length ws1 = List.length cols ->
      (forall i, i <> col -> nth i ws1 0 = nth i ws0 0) ->
      Z.of_nat (start (pd cols) (wd ws1) (col + span)) = Z.of_nat (start (pd cols) (wd ws1) col) + wid + 1 ->
      Z.of_nat (List.length h) <= wid ->
      (nth col ws1 0 = nth col ws0 0 \/ nth col ws0 0 < nth col ws1 0 /\ wid = Z.of_nat (List.length h)) ->
      exists ws lines, (do (ws, line) <- heading_loop cols hs (col + span) ws1; Ok (ws, ljust h wid :: line)) = Ok (ws, lines) /\
        List.length ws = List.length cols /\ Forall (fun w => 0 <= w) ws /\
        Forall2 (fun k line => exists h0, nth_error ((h, span) :: hs) k = Some h0 /\
                   heading_fits cols ws (col + first_column ((h, span) :: hs) k) h0 line)
                (seq 0 (List.length ((h, span) :: hs))) lines /\
        (forall i, (i < col)%nat -> nth i ws 0 = nth i ws0 0) /\
        (forall i, nth i ws 0 = nth i ws0 0 \/
           nth i ws0 0 < nth i ws 0 /\ exists k h0 span0, nth_error ((h, span) :: hs) k = Some (h0, span0) /\
             i = (col + first_column ((h, span) :: hs) k)%nat /\
             start (pd cols) (wd ws) (i + span0) = (start (pd cols) (wd ws) i + List.length h0 + 1)%nat)).
    { intros ws1 wid N1 L1 O1 S2 GE CH.
      destruct (IH (col + span)%nat ws1 FS') as (ws & lines & E & LL & NW & F2 & KEEP & WID); [unfold covered in *; lia|exact N1|exact L1|].
      rewrite E. cbn [bind].
      assert (SE : forall n, (n <= col + span)%nat -> start (pd cols) (wd ws) n = start (pd cols) (wd ws1) n).
      { intros n Ln. apply start_ext. intros i Li. unfold wd. rewrite KEEP by lia. reflexivity. }
      exists ws, (ljust h wid :: lines). split; [reflexivity|]. split; [exact LL|]. split; [exact NW|]. split; [|split].
      - cbn [List.length seq]. constructor.
        + exists (h, span). split; [reflexivity|]. exists (Z.to_nat wid). simpl. rewrite Nat.add_0_r.
          rewrite !SE by lia. split; [lia|]. split; [lia|]. f_equal. lia.
        + rewrite <- seq_shift. clear - F2. remember (seq 0 (List.length hs)) as sq. clear Heqsq.
          induction F2 as [|k l ks ls H F2 IHF]; [constructor|]. simpl. constructor; [|exact IHF].
          destruct H as (h0 & E & H). exists h0. split; [exact E|]. cbn [first_column].
          replace (col + (span + first_column hs k))%nat with (col + span + first_column hs k)%nat by lia. exact H.
      - intros i Li. rewrite KEEP by lia. apply O1. lia.
      - intros i. destruct (Nat.eq_dec i col) as [->|NE].
        + rewrite (KEEP col) by lia. destruct CH as [CH|[CH WE]]; [left; exact CH|right]. split; [exact CH|].
          exists O, h, span. split; [reflexivity|]. split; [simpl; lia|]. rewrite !SE by lia. lia.
        + destruct (WID i) as [W|(W & k & h0 & span0 & E1 & E2 & E3)].
          * left. rewrite W. apply O1. exact NE.
          * right. split; [rewrite <- (O1 i NE); exact W|]. exists (S k), h0, span0. split; [exact E1|].
            split; [cbn [first_column]; lia|exact E3]. }
    destruct (0 <? Z.of_nat (List.length h) - width) eqn:SF.
    + apply Z.ltb_lt in SF.
      destruct (widen_ok ws0 col (Z.of_nat (List.length h) - width)) as (ws1 & EW & L1 & A & B); [lia|].
      rewrite EW. cbn [bind].
      assert (N1 : Forall (fun w => 0 <= w) ws1).
      { apply nonneg_nth. intros i. pose proof (proj2 (nonneg_nth ws0) NN i) as P. destruct (Nat.eq_dec i col) as [->|NE].
        - rewrite A. lia. - rewrite B by exact NE. exact P. }
      apply FIN; [exact N1|congruence|exact B| |lia|right; split; lia].
      assert (E1 : start (pd cols) (wd ws1) col = start (pd cols) (wd ws0) col).
      { apply start_ext. intros i Li. unfold wd. rewrite B by lia. reflexivity. }
      destruct span as [|sp]; [lia|].
      replace (col + S sp)%nat with (S col + sp)%nat by lia.
      pose proof (start_diff_ext (pd cols) (wd ws1) (wd ws0) (S col) sp) as D.
      assert (D' : (start (pd cols) (wd ws1) (S col + sp) + start (pd cols) (wd ws0) (S col) =
                    start (pd cols) (wd ws0) (S col + sp) + start (pd cols) (wd ws1) (S col))%nat).
      { apply D. intros j Lj. unfold wd. rewrite B by lia. reflexivity. }
      cbn [start] in D'. replace (S col + sp)%nat with (col + S sp)%nat in * by lia. rewrite E1 in *.
      pose proof (proj2 (nonneg_nth ws0) NN col) as P.
      assert (WC : wd ws1 col = (wd ws0 col + Z.to_nat (Z.of_nat (List.length h) - width))%nat) by (unfold wd; rewrite A; lia).
      lia.
    + apply Z.ltb_ge in SF. apply FIN; [exact NN|exact LW|reflexivity|lia|lia|left; reflexivity].
Qed.
