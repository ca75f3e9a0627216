From Verif Require Import Base Bytes PyStr GtpModel GtpProofs TableModel TableSpec TableProofs TableMainProofs.

Lemma white_dec c : {white c} + {~ white c}.
Proof. unfold white. destruct (is_space c); [left|right]; congruence. Qed.

Lemma split_ws_white s t : Forall white s -> split_ws (s ++ t) = split_ws t.
Proof. induction 1 as [|c s H F IH]; simpl; [reflexivity|]. rewrite H. exact IH. Qed.

Lemma split_ws_word' w post : w <> [] -> Forall (fun c => ~ white c) w -> (forall c r, post = c :: r -> white c) ->
  split_ws (w ++ post) = w :: split_ws post.
Proof.
  intros NE F P. induction w as [|c w IH]; [congruence|]. inversion F as [|x y N F']; subst. unfold white in N.
  cbn [app split_ws]. destruct (is_space c) eqn:S; [congruence|]. destruct w as [|d w].
  - cbn [app]. destruct post as [|p post]; [reflexivity|]. rewrite (P p post eq_refl). reflexivity.
  - inversion F' as [|x y N' F'']; subst. unfold white in N'. cbn [app]. destruct (is_space d) eqn:S'; [congruence|].
    change (d :: w ++ post) with ((d :: w) ++ post). rewrite IH; [reflexivity|discriminate|exact F'].
Qed.

Lemma reads_split s ws : reads s ws -> split_ws s = ws.
Proof.
  induction 1 as [s F|pre w post ws F NE FW P R IH].
  - rewrite <- (app_nil_r s). rewrite split_ws_white by exact F. reflexivity.
  - rewrite split_ws_white by exact F. rewrite split_ws_word' by assumption. rewrite IH. reflexivity.
Qed.

Lemma span_word s : exists w post, s = w ++ post /\ Forall (fun c => ~ white c) w /\ (forall c r, post = c :: r -> white c).
Proof.
  induction s as [|c s (w & post & E & F & P)].
  - exists [], []. repeat split; [constructor|discriminate].
  - destruct (white_dec c) as [W|W].
    + exists [], (c :: s). repeat split; [constructor|]. intros d r X. injection X as <- <-. exact W.
    + exists (c :: w), post. rewrite E. repeat split; [constructor; assumption|exact P].
Qed.

Lemma reads_total s : reads s (split_ws s).
Proof.
  assert (G : forall n s, (List.length s <= n)%nat -> exists ws, reads s ws).
  { clear s. induction n as [|n IH]; intros s L.
    - destruct s; [|simpl in L; lia]. exists []. constructor. constructor.
    - destruct (lstrip_split s) as (ws & E & F & N). destruct (lstrip s) as [|c r] eqn:LS.
      + exists []. constructor. rewrite E, app_nil_r. exact F.
      + destruct (span_word (c :: r)) as (w & post & E2 & FW & P).
        assert (NE : w <> []).
        { intros ->. simpl in E2. apply (N c r eq_refl). apply (P c r). congruence. }
        destruct (IH post) as (l & R).
        * apply (f_equal (@List.length ascii)) in E. apply (f_equal (@List.length ascii)) in E2. rewrite !app_length in *.
          destruct w; [congruence|]. simpl in *. lia.
        * exists (w :: l). rewrite E, E2. constructor; assumption. }
  destruct (G (List.length s) s (Nat.le_refl _)) as (ws & R). rewrite (reads_split s ws R). exact R.
Qed.

Lemma reads_fun s a b : reads s a -> reads s b -> a = b.
Proof. intros A B. apply reads_split in A. apply reads_split in B. congruence. Qed.

Lemma split_ws_sep s c t : white c -> split_ws (s ++ c :: t) = split_ws s ++ split_ws t.
Proof.
  intros W. pose proof (reads_total s) as R. remember (split_ws s) as l eqn:E. clear E.
  induction R as [s F|pre w post ws F NE FW P R IH].
  - rewrite split_ws_white by exact F. cbn [split_ws app]. rewrite W. reflexivity.
  - rewrite <- !app_assoc. rewrite split_ws_white by exact F. rewrite split_ws_word'; [|exact NE|exact FW|].
    + rewrite IH. reflexivity.
    + intros d r E. destruct post as [|p post]; cbn [app] in E; injection E as <- _; [exact W|apply (P p post eq_refl)].
Qed.

Lemma split_ws_trail s t : Forall white t -> split_ws (s ++ t) = split_ws s.
Proof.
  intros F. destruct F as [|c t W F]; [rewrite app_nil_r; reflexivity|]. rewrite split_ws_sep by exact W.
  rewrite <- (app_nil_r t). rewrite split_ws_white by exact F. simpl. apply app_nil_r.
Qed.

Lemma blanks_white n : Forall white (repeat " "%char n).
Proof. apply Forall_forall. intros c I. apply repeat_spec in I. subst c. reflexivity. Qed.

Lemma render_cell_split c s w : split_ws (render_cell c s w) = split_ws s.
Proof.
  unfold render_cell, ljust, rjust. rewrite split_ws_trail by apply blanks_white. destruct (col_align c).
  - apply split_ws_trail. apply blanks_white.
  - apply split_ws_white. apply blanks_white.
  - reflexivity.
Qed.

Lemma row_text_split t r : forall l col, Forall (fun x => 1 <= col_padding (fst x)) l ->
  split_ws (row_text t r col l) = List.concat (map (fun i => split_ws (cell t r i)) (seq col (List.length l))).
Proof.
  induction l as [|[c w] l IH]; intros col F; [reflexivity|]. inversion F as [|x y P F']; subst. cbn [fst] in P.
  cbn [row_text List.length seq map List.concat]. rewrite <- (IH (S col) F'), <- (render_cell_split c (cell t r col) w).
  unfold render_cell at 1 2. set (x := match col_align c with ALeft => _ | ARight => _ | AOther => _ end).
  destruct (Z.to_nat (col_padding c)) as [|n] eqn:N; [lia|].
  replace (repeat " "%char (S n)) with (repeat " "%char n ++ [" "%char]) by (symmetry; apply (repeat_app " "%char n 1) || (rewrite <- repeat_cons; reflexivity)).
  rewrite <- !app_assoc. cbn [app]. rewrite !app_assoc. rewrite split_ws_sep by reflexivity.
  rewrite split_ws_sep by reflexivity. cbn [split_ws]. rewrite app_nil_r. reflexivity.
Qed.

Lemma rstrip_split s : split_ws (rstrip s) = split_ws s.
Proof.
  destruct (rstrip_trimmed s) as (ws & E & F & _). rewrite E at 2. rewrite split_ws_trail by exact F. reflexivity.
Qed.

Lemma split_nil s : split_ws s = [] -> rstrip s = [].
Proof.
  intros E. pose proof (reads_total s) as R. rewrite E in R. inversion R as [s' F|]; subst.
  apply (trimmed_fun s). - apply rstrip_trimmed. - exists s. repeat split; [exact F|]. intros [|? ?] c X; discriminate.
Qed.

Lemma widen_length n : forall ws col ws1, widen ws col n = Ok ws1 -> List.length ws1 = List.length ws.
Proof.
  induction ws as [|w ws IH]; intros [|c] ws1 W; simpl in W; try discriminate.
  - injection W as <-. reflexivity.
  - destruct (widen ws c n) eqn:X; cbn [bind] in W; [|discriminate]. injection W as <-. simpl. rewrite (IH _ _ X). reflexivity.
Qed.

Lemma read_back t lines : Forall (fun c => 1 <= col_padding c) (tb_columns t) -> render t = Ok lines ->
  exists title rows, lines = title :: rows /\
    Forall (fun l => l <> []) rows /\
    map split_ws rows = filter (fun l => match l with [] => false | _ => true end)
      (map (fun r => List.concat (map (fun i => split_ws (cell t r i)) (seq 0 (List.length (tb_columns t))))) (seq 0 (rows_of t))).
Proof.
  intros FP. unfold render.
  destruct (map_res (column_width t) (seq 0 (List.length (tb_columns t)))) as [ws0|] eqn:E0; cbn [bind]; [|discriminate].
  destruct (heading_loop (tb_columns t) (tb_headings t) 0 ws0) as [[ws hl]|] eqn:EH; cbn [bind]; [|discriminate].
  unfold row_numbers, rows_of. destruct (tb_rows t) as [z|] eqn:R; cbn [bind]; [|discriminate].
  intros E. injection E as <-. eexists _, _. split; [reflexivity|]. split.
  - apply Forall_forall. intros l I. apply filter_In in I. destruct I as [_ I]. intros ->. discriminate.
  - assert (LW : List.length ws = List.length (tb_columns t)).
    { assert (L0 : List.length ws0 = List.length (tb_columns t)).
      { assert (G : forall l ys, map_res (column_width t) l = Ok ys -> List.length ys = List.length l).
        { induction l as [|x l IH]; intros ys E; simpl in E; [injection E as <-; reflexivity|].
          destruct (column_width t x); cbn [bind] in E; [|discriminate].
          destruct (map_res (column_width t) l) eqn:M; cbn [bind] in E; [|discriminate]. injection E as <-. simpl.
          rewrite (IH _ eq_refl). reflexivity. }
        apply G in E0. rewrite seq_length in E0. exact E0. }
      clear - EH L0. revert EH. generalize O as col. revert ws0 L0 ws hl. induction (tb_headings t) as [|[h s] hs IH]; intros ws0 L0 ws hl col E.
      - simpl in E. injection E as <- <-. exact L0.
      - cbn [heading_loop] in E. destruct (paddings (tb_columns t) col s); cbn [bind] in E; [|discriminate]. cbv zeta in E.
        match type of E with context [0 <? ?z] => destruct (0 <? z) end.
        + match type of E with context [widen ws0 col ?n] => destruct (widen ws0 col n) as [ws1|] eqn:W end; cbn [bind] in E; [|discriminate].
          destruct (heading_loop (tb_columns t) hs (col + s) ws1) as [[ws2 l2]|] eqn:H; cbn [bind] in E; [|discriminate].
          injection E as <- _. refine (IH ws1 _ ws2 l2 _ H). rewrite <- L0. exact (widen_length _ _ _ _ W).
        + destruct (heading_loop (tb_columns t) hs (col + s) ws0) as [[ws2 l2]|] eqn:H; cbn [bind] in E; [|discriminate].
          injection E as <- _. exact (IH ws0 L0 ws2 l2 _ H). }
    assert (FX : Forall (fun x : column * Z => 1 <= col_padding (fst x)) (combine (tb_columns t) ws)).
    { apply Forall_forall. intros [c w] I. apply in_combine_l in I. rewrite Forall_forall in FP. apply FP. exact I. }
    assert (LN : List.length (combine (tb_columns t) ws) = List.length (tb_columns t)) by (rewrite combine_length; lia).
    assert (S : forall r, split_ws (rstrip (row_text t r 0 (combine (tb_columns t) ws))) =
                  List.concat (map (fun i => split_ws (cell t r i)) (seq 0 (List.length (tb_columns t))))).
    { intros r. rewrite rstrip_split, row_text_split by exact FX. rewrite LN. reflexivity. }
    induction (seq 0 (Z.to_nat z)) as [|r rs IH]; [reflexivity|]. cbn [map filter]. rewrite <- (S r).
    destruct (rstrip (row_text t r 0 (combine (tb_columns t) ws))) as [|c s] eqn:RS.
    + cbn [split_ws]. exact IH.
    + cbn [map]. destruct (split_ws (c :: s)) as [|w l] eqn:SP.
      * exfalso. rewrite <- RS in SP. apply split_nil in SP.
        destruct (rstrip_trimmed (row_text t r 0 (combine (tb_columns t) ws))) as (tl & E1 & F1 & N1).
        rewrite (trimmed_fun (rstrip (row_text t r 0 (combine (tb_columns t) ws))) (rstrip (rstrip (row_text t r 0 (combine (tb_columns t) ws))))
                  (rstrip (row_text t r 0 (combine (tb_columns t) ws)))) in SP; [congruence|apply rstrip_trimmed|].
        exists []. rewrite app_nil_r. repeat split; [constructor|exact N1].
      * f_equal. exact IH.
Qed.

Lemma heading_loop_texts cols : forall hs col ws0 ws hl, heading_loop cols hs col ws0 = Ok (ws, hl) ->
  Forall2 (fun h l => exists w, l = ljust (fst h) w) hs hl.
Proof.
  induction hs as [|[h s] hs IH]; intros col ws0 ws hl E; cbn [heading_loop] in E.
  - injection E as <- <-. constructor.
  - destruct (paddings cols col s); cbn [bind] in E; [|discriminate]. cbv zeta in E.
    match type of E with context [0 <? ?z] => destruct (0 <? z) end.
    + match type of E with context [widen ws0 col ?n] => destruct (widen ws0 col n) as [ws1|] end; cbn [bind] in E; [|discriminate].
      destruct (heading_loop cols hs (col + s) ws1) as [[ws2 l2]|] eqn:H; cbn [bind] in E; [|discriminate].
      injection E as <- <-. constructor; [eexists; reflexivity|exact (IH _ _ _ _ H)].
    + destruct (heading_loop cols hs (col + s) ws0) as [[ws2 l2]|] eqn:H; cbn [bind] in E; [|discriminate].
      injection E as <- <-. constructor; [eexists; reflexivity|exact (IH _ _ _ _ H)].
Qed.

Lemma title_read t title rows : render t = Ok (title :: rows) ->
  split_ws title = List.concat (map (fun h => split_ws (fst h)) (tb_headings t)).
Proof.
  unfold render. destruct (map_res (column_width t) (seq 0 (List.length (tb_columns t)))) as [ws0|]; cbn [bind]; [|discriminate].
  destruct (heading_loop (tb_columns t) (tb_headings t) 0 ws0) as [[ws hl]|] eqn:EH; cbn [bind]; [|discriminate].
  destruct (row_numbers t); cbn [bind]; [|discriminate]. intros E. injection E as <- _.
  rewrite join_wide, rstrip_split. apply heading_loop_texts in EH. unfold wide.
  induction EH as [|h l hs ls (w & ->) F IH]; [reflexivity|]. cbn [map List.concat].
  rewrite <- app_assoc. cbn [app]. rewrite split_ws_sep by reflexivity. rewrite IH. f_equal.
  unfold ljust. apply split_ws_trail. apply blanks_white.
Qed.
