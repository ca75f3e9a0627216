(** Proofs about ASCII diagrams (C07). *)
From Verif Require Import Base Bytes PyStr BoardModel BoardSpec BoardProofs BoardPlayProofs BoardMainProofs.
From Verif Require Import CommonModel CommonSpec CommonProofs.

(** * Fewer stones, still legal *)
Definition subpos (s : Z) (small big : position) : Prop :=
  forall p, on_board s p -> small p <> None -> small p = big p.

Lemma sub_connected s small big p q : subpos s small big -> on_board s p -> small p <> None ->
  connected s big p q -> connected s small p q \/ has_liberty s small p.
Proof.
  intros S Hp N C. induction C as [|q r C IH A O E]; [left; constructor|].
  destruct IH as [IH|IH]; auto.
  destruct (small r) as [x|] eqn:Er.
  - left. econstructor; eauto. rewrite (S p Hp N). rewrite <- E. apply S; auto. congruence.
  - right. exists q, r. auto.
Qed.

Lemma sub_legal s small big : legal s big -> subpos s small big -> legal s small.
Proof.
  intros L S p Hp N. pose proof (S p Hp N) as E.
  destruct (L p Hp) as (q & l & C & A & O & El); [congruence|].
  destruct (sub_connected s small big p q S Hp N C) as [C'|H]; auto.
  exists q, l. repeat split; auto; try apply O.
  destruct (small l) eqn:X; auto. rewrite <- El. rewrite <- X. apply S; auto. congruence.
Qed.

Lemma go_move_no_capture s pos p c pos' : legal s (place pos p (Some c)) ->
  go_move s pos p c pos' -> same_on s pos' (place pos p (Some c)).
Proof.
  intros L (pos2 & C1 & C2).
  assert (same_on s pos2 (place pos p (Some c))) as S1.
  { intros q Hq. apply (C1 q Hq). intros [E N]. apply N. apply L; auto. congruence. }
  intros q Hq. rewrite <- (S1 q Hq). apply (C2 q Hq). intros [E N]. apply N.
  apply (legal_ext s _ _ (same_on_sym _ _ _ S1) L q Hq). congruence.
Qed.

(** The stones of [pos] on the points of [done]. *)
Definition partial (pos : position) (done : list point) : position :=
  fun p => if mem_point p done then pos p else None.

Lemma partial_sub s pos done : subpos s (partial pos done) pos.
Proof. intros p _ N. unfold partial in *. destruct (mem_point p done); congruence. Qed.

Definition readable (lines : list bytes) (size off : Z) (pos : position) : Prop :=
  forall row col, on_board size (row, col) ->
    exists line ch, py_nth lines (size - row - 1) = Ok line /\
      py_nth line (3 * (col + 1) + off) = Ok ch /\ diagram_colour ch = Ok (pos (row, col)).

Lemma diagram_loop_ok pick lines size off pos : legal size pos -> readable lines size off pos ->
  forall rest done b, board_points size = done ++ rest -> reachable size b ->
  same_on size (view b) (partial pos done) ->
  exists b', diagram_loop pick lines size off rest b = Ok b' /\ reachable size b' /\
    same_on size (view b') pos.
Proof.
  intros L Rd. induction rest as [|[row col] rest IH]; intros done b E HR S.
  - exists b. split; [reflexivity|]. split; auto. intros p Hp. rewrite (S p Hp). unfold partial.
    rewrite app_nil_r in E. rewrite (proj2 (mem_point_true p done)); auto.
    rewrite <- E. apply In_board_points. exact Hp.
  - assert (on_board size (row, col)) as Ho.
    { apply In_board_points. rewrite E. apply in_app_iff. right. left. auto. }
    assert (~ In (row, col) done) as Nd.
    { pose proof (NoDup_board_points size) as ND. rewrite E in ND. apply NoDup_remove_2 in ND.
      intro C. apply ND. apply in_app_iff. auto. }
    destruct (Rd row col Ho) as (line & ch & E1 & E2 & E3).
    cbn [diagram_loop]. rewrite E1. cbn [bind]. rewrite E2. cbn [bind]. rewrite E3. cbn [bind].
    assert (forall q, on_board size q -> partial pos (done ++ [(row, col)]) q =
              if point_eqb (row, col) q then pos (row, col) else partial pos done q) as PE.
    { intros q Hq. unfold partial.
      destruct (mem_point_spec q (done ++ [(row, col)])) as [I|N].
      - apply in_app_iff in I. destruct (point_eqb_spec (row, col) q) as [<-|Ne]; auto.
        destruct I as [I|[I|[]]]; [|congruence]. rewrite (proj2 (mem_point_true q done) I). auto.
      - destruct (point_eqb_spec (row, col) q) as [<-|Ne].
        + exfalso. apply N. apply in_app_iff. right. left. auto.
        + rewrite (proj2 (mem_point_false q done)); auto. intro C. apply N. apply in_app_iff. auto. }
    assert (board_points size = (done ++ [(row, col)]) ++ rest) as E' by (rewrite <- app_assoc; exact E).
    destruct (pos (row, col)) as [c|] eqn:Ec.
    + assert (view b (row, col) = None) as Ev.
      { rewrite (S _ Ho). unfold partial. rewrite (proj2 (mem_point_false _ done) Nd). auto. }
      destruct (C01_proof pick size b (row, col) c HR Ho Ev) as (b' & ko & Ep & G).
      cbn [fst snd] in Ep. rewrite Ep.
      assert (same_on size (place (view b) (row, col) (Some c)) (partial pos (done ++ [(row, col)]))) as SP.
      { intros q Hq. rewrite (PE q Hq). unfold place. destruct (point_eqb (row, col) q); auto. }
      assert (legal size (place (view b) (row, col) (Some c))) as LP.
      { eapply legal_ext; [apply same_on_sym; exact SP|]. eapply sub_legal; [exact L|]. apply partial_sub. }
      apply (IH (done ++ [(row, col)]) b' E').
      * change b' with (fst (b', @Ok (option point) ko)). rewrite <- Ep.
        apply (reach_op size pick b (OpPlay row col c) HR).
      * eapply same_on_trans; [|exact SP]. eapply go_move_no_capture; eauto.
    + apply (IH (done ++ [(row, col)]) b E' HR).
      intros q Hq. rewrite (S q Hq), (PE q Hq). destruct (point_eqb_spec (row, col) q) as [<-|]; auto.
      unfold partial. rewrite (proj2 (mem_point_false _ done) Nd). auto.
Qed.

(** * The text *)

Lemma mapm_ok {A B} (f : A -> res B) (g : A -> B) l :
  (forall x, In x l -> f x = Ok (g x)) -> mapm f l = Ok (map g l).
Proof.
  induction l as [|x l IH]; simpl; intros H; auto.
  rewrite (H x) by auto. simpl. rewrite IH by auto. reflexivity.
Qed.

Definition no_lf (s : bytes) : Prop := ~ In char_lf s.

Lemma split_on_nolf s : no_lf s -> split_on char_lf s = [s].
Proof.
  induction s as [|c s IH]; simpl; intros N; auto. unfold no_lf in *. simpl in N.
  destruct (ceqb_spec c char_lf); [tauto|]. rewrite IH by tauto. reflexivity.
Qed.

Lemma split_on_join l : l <> [] -> Forall no_lf l -> split_on char_lf (join [char_lf] l) = l.
Proof.
  induction l as [|x l IH]; intros N F; [congruence|]. inversion F as [|? ? Fx Fl]; subst.
  destruct l as [|y l]; [apply split_on_nolf; exact Fx|].
  specialize (IH ltac:(discriminate) Fl). remember (y :: l) as l' eqn:El.
  assert (join [char_lf] (x :: l') = x ++ char_lf :: join [char_lf] l') as -> by (rewrite El; reflexivity).
  clear El N F. induction x as [|c x IHx].
  - cbn [app split_on]. destruct (ceqb_spec char_lf char_lf); [|congruence]. rewrite IH. reflexivity.
  - unfold no_lf in Fx. simpl in Fx. cbn [app split_on].
    destruct (ceqb_spec c char_lf); [tauto|]. rewrite IHx by (unfold no_lf; tauto). reflexivity.
Qed.

Lemma strip_ends s a t p z : s = a :: t -> is_space a = false -> s = p ++ [z] -> is_space z = false ->
  strip s = s.
Proof.
  intros E1 Ha E2 Hz. unfold strip.
  assert (lstrip s = s) as -> by (rewrite E1; cbn [lstrip]; rewrite Ha; reflexivity).
  assert (rev s = z :: rev p) as E by (rewrite E2, rev_app_distr; reflexivity).
  assert (lstrip (rev s) = rev s) as -> by (rewrite E; cbn [lstrip]; rewrite Hz; reflexivity).
  apply rev_involutive.
Qed.

(** Reading the second character of the [i]th cell. *)
Lemma nth_join2 : forall l i a b, nth_error l i = Some [a; b] -> Forall (fun s : bytes => List.length s = 2%nat) l ->
  nth_error (join (str " ") l) (3 * i + 1) = Some b.
Proof.
  induction l as [|x l IH]; intros i a b H F; [destruct i; discriminate|].
  inversion F as [|? ? Fx Fl]; subst. destruct x as [|u [|v [|]]]; try discriminate.
  destruct i as [|i]; cbn [nth_error] in H.
  - injection H as -> ->. destruct l; reflexivity.
  - destruct l as [|y l]; [destruct i; discriminate|].
    change (join (str " ") ([u; v] :: y :: l)) with (u :: v :: " "%char :: join (str " ") (y :: l)).
    replace (3 * S i + 1)%nat with (S (S (S (3 * i + 1)))) by lia. cbn [nth_error]. eapply IH; eauto.
Qed.

Lemma point_string_two c : exists a b, point_string c = [a; b] /\ a <> char_lf /\ b <> char_lf /\
  diagram_colour b = Ok c.
Proof. destruct c as [[|]|]; eexists; eexists; (split; [reflexivity|]); repeat split; discriminate. Qed.

Definition row_start (size z : Z) : bytes :=
  if 9 <? size then pad_left 2 (str_int z) ++ str " " else str_int z ++ str " ".

Lemma str_int_pos z : 0 <= z < 100 -> (1 <= List.length (str_int z) <= 2)%nat.
Proof.
  intros H. destruct (str_int_nonneg z ltac:(lia)) as (_ & _ & N).
  pose proof (str_int_length z 2 ltac:(simpl; lia) ltac:(lia)).
  destruct (str_int z); [congruence|]. simpl in *. lia.
Qed.

Lemma row_start_length size z : 2 <= size <= 25 -> 1 <= z <= size ->
  Z.of_nat (List.length (row_start size z)) = if 9 <? size then 3 else 2.
Proof.
  intros Hs Hz. unfold row_start. pose proof (str_int_pos z ltac:(lia)).
  destruct (Z.ltb_spec 9 size).
  - unfold pad_left. rewrite !app_length, repeat_length. simpl List.length. lia.
  - pose proof (str_int_length z 1 ltac:(simpl; lia) ltac:(lia)).
    rewrite app_length. simpl List.length. lia.
Qed.

Lemma digits_no_lf s : forallb is_digit s = true -> no_lf s.
Proof. intros H C. rewrite forallb_forall in H. apply H in C. discriminate. Qed.

Lemma no_lf_app a b : no_lf a -> no_lf b -> no_lf (a ++ b).
Proof. unfold no_lf. rewrite in_app_iff. tauto. Qed.

Lemma no_lf_repeat c n : c <> char_lf -> no_lf (repeat c n).
Proof. intros N C. apply repeat_spec in C. congruence. Qed.

Lemma no_lf_join sep l : no_lf sep -> Forall no_lf l -> no_lf (join sep l).
Proof.
  intros S F. induction F as [|x l Fx Fl IH]; [intros []|].
  destruct l as [|y l]; [exact Fx|].
  change (join sep (x :: y :: l)) with (x ++ sep ++ join sep (y :: l)).
  repeat apply no_lf_app; auto.
Qed.

Lemma no_lf_str s : forallb (fun c => negb (ceqb c char_lf)) s = true -> no_lf s.
Proof.
  intros H C. rewrite forallb_forall in H. apply H in C.
  destruct (ceqb_spec char_lf char_lf); [discriminate|congruence].
Qed.

Lemma row_start_no_lf size z : 0 <= z -> no_lf (row_start size z).
Proof.
  intros Hz. destruct (str_int_nonneg z Hz) as (_ & D & _). apply digits_no_lf in D.
  unfold row_start, pad_left. destruct (9 <? size); repeat apply no_lf_app; auto;
    try (apply no_lf_repeat; discriminate); apply no_lf_str; reflexivity.
Qed.

Definition row_text (size : Z) (pos : position) (row : Z) : bytes :=
  row_start size (row + 1) ++ join (str " ") (map (fun col => point_string (pos (row, col))) (range size)).

Definition letter_at (i : Z) : ascii := nth (Z.to_nat i) gtp_columns "A"%char.

Definition footer (size : Z) : bytes :=
  (if 9 <? size then str " " else []) ++ str "   " ++
  join (str "  ") (map (fun c => [c]) (map letter_at (range size))).

Lemma column_letter_at i : 0 <= i < 25 -> column_letter i = Ok (letter_at i).
Proof.
  intros H. destruct (column_letter_nth i H) as (l & -> & E). f_equal. unfold letter_at.
  symmetry. apply nth_error_nth. exact E.
Qed.

Lemma render_grid_text b : wf b -> 2 <= side b <= 25 ->
  render_grid (fun row col => do c <- get b row col; Ok (point_string c)) (side b) =
  Ok (map (row_text (side b) (view b)) (rev (range (side b))) ++ [footer (side b)]).
Proof.
  intros W Hs. unfold render_grid.
  rewrite (mapm_ok column_letter letter_at).
  2:{ intros x I. apply In_range in I. apply column_letter_at. lia. }
  cbn [bind]. unfold down_range.
  rewrite (mapm_ok _ (row_text (side b) (view b))).
  - cbn [bind]. reflexivity.
  - intros row I. apply in_rev, In_range in I.
    rewrite (mapm_ok _ (fun col => point_string (view b (row, col)))).
    + reflexivity.
    + intros col J. apply In_range in J. rewrite get_spec by auto.
      rewrite (proj2 (on_boardb_true (side b) (row, col))) by (unfold on_board; simpl; lia).
      cbn [bind]. rewrite view_on by (auto; unfold on_board; simpl; lia). reflexivity.
Qed.

Lemma no_lf_cons c s : c <> char_lf -> no_lf s -> no_lf (c :: s).
Proof. unfold no_lf. simpl. intuition congruence. Qed.

Lemma row_text_no_lf size pos row : 0 <= row -> no_lf (row_text size pos row).
Proof.
  intros H. apply no_lf_app; [apply row_start_no_lf; lia|].
  apply no_lf_join; [apply no_lf_str; reflexivity|].
  apply Forall_map. rewrite Forall_forall. intros col _.
  destruct (point_string_two (pos (row, col))) as (a & b & -> & Na & Nb & _).
  repeat apply no_lf_cons; auto; intros [].
Qed.

Lemma letter_no_lf i : 0 <= i < 25 -> letter_at i <> char_lf /\ is_space (letter_at i) = false.
Proof.
  intros H. unfold letter_at.
  assert (In (nth (Z.to_nat i) gtp_columns "A"%char) gtp_columns) as I.
  { apply nth_In. change (List.length gtp_columns) with 25%nat. lia. }
  assert (forallb (fun c => negb (ceqb c char_lf) && negb (is_space c)) gtp_columns = true) as F by reflexivity.
  rewrite forallb_forall in F. apply F in I. apply andb_true_iff in I. destruct I as [I1 I2].
  split; [|destruct (is_space _); auto; discriminate].
  intros E. rewrite E in I1. discriminate.
Qed.

Lemma footer_no_lf size : 2 <= size <= 25 -> no_lf (footer size).
Proof.
  intros H. unfold footer. apply no_lf_app; [destruct (9 <? size); apply no_lf_str; reflexivity|].
  apply no_lf_app; [apply no_lf_str; reflexivity|].
  apply no_lf_join; [apply no_lf_str; reflexivity|].
  rewrite map_map. apply Forall_map. rewrite Forall_forall. intros i I. apply In_range in I.
  apply no_lf_cons; [apply letter_no_lf; lia|intros []].
Qed.

Lemma join_last sep l x : exists pre, join sep (l ++ [x]) = pre ++ x.
Proof.
  induction l as [|y l [pre IH]]; [exists []; reflexivity|].
  cbn [app]. destruct (l ++ [x]) as [|u v] eqn:E; [destruct l; discriminate|].
  exists (y ++ sep ++ pre). change (join sep (y :: u :: v)) with (y ++ sep ++ join sep (u :: v)).
  rewrite IH, !app_assoc. reflexivity.
Qed.

Lemma join_first sep x l : exists post, join sep (x :: l) = x ++ post.
Proof. destruct l; [exists []; rewrite app_nil_r; reflexivity|]. eexists. reflexivity. Qed.

Lemma range_snoc n : 1 <= n -> range n = range (n - 1) ++ [n - 1].
Proof.
  intros H. unfold range. replace (Z.to_nat n) with (S (Z.to_nat (n - 1))) by lia.
  rewrite seq_S, map_app. simpl. f_equal. f_equal. lia.
Qed.

Lemma footer_last size : 2 <= size <= 25 -> exists pre, footer size = pre ++ [letter_at (size - 1)].
Proof.
  intros H. unfold footer. rewrite range_snoc by lia. rewrite !map_app. cbn [map].
  match goal with |- context [join ?sep (?l ++ [?x])] => destruct (join_last sep l x) as [pre E] end.
  unfold bytes in *. rewrite E.
  rewrite !app_assoc. eexists. reflexivity.
Qed.

Lemma row_start_first size : 2 <= size <= 25 ->
  exists a t, row_start size size = a :: t /\ is_space a = false.
Proof.
  intros H. destruct (str_int_nonneg size ltac:(lia)) as (V & D & N).
  assert (exists a t, str_int size = a :: t /\ is_space a = false) as (a & t & E & Sa).
  { destruct (str_int size) as [|a t]; [congruence|]. exists a, t. split; auto.
    simpl in D. apply andb_true_iff in D. apply digit_not_space. tauto. }
  unfold row_start. destruct (Z.ltb_spec 9 size).
  - unfold pad_left.
    assert (2 - List.length (str_int size) = 0)%nat as ->.
    { destruct (Nat.lt_ge_cases (List.length (str_int size)) 2) as [L|L]; [|lia].
      pose proof (digits_val_bound _ D) as B. rewrite V in B.
      assert (10 ^ Z.of_nat (List.length (str_int size)) <= 10 ^ 1) by (apply Z.pow_le_mono_r; lia).
      lia. }
    rewrite E. simpl. eauto.
  - rewrite E. simpl. eauto.
Qed.

Lemma rev_range n : 1 <= n -> rev (range n) = n - 1 :: rev (range (n - 1)).
Proof. intros H. rewrite range_snoc at 1 by lia. rewrite rev_app_distr. reflexivity. Qed.

Lemma render_board_text b : wf b -> 2 <= side b <= 25 ->
  exists text, render_board b = Ok text /\
    split_on char_lf (strip text) = map (row_text (side b) (view b)) (rev (range (side b))) ++ [footer (side b)].
Proof.
  intros W Hs. unfold render_board. rewrite render_grid_text by auto. cbn [bind].
  eexists. split; [reflexivity|].
  set (lines := map (row_text (side b) (view b)) (rev (range (side b)))).
  assert (strip (join [char_lf] (lines ++ [footer (side b)])) = join [char_lf] (lines ++ [footer (side b)])) as ->.
  { destruct (join_last [char_lf] lines (footer (side b))) as [pre E2].
    destruct (footer_last (side b) Hs) as [pre2 E3]. rewrite E3, app_assoc in E2.
    rewrite E3. destruct (row_start_first (side b) Hs) as (a & t & E4 & Sa).
    assert (exists t', join [char_lf] (lines ++ [footer (side b)]) = a :: t') as [t' E5].
    { unfold lines. rewrite rev_range by lia. cbn [map app].
      destruct (join_first [char_lf] (row_text (side b) (view b) (side b - 1))
                  (map (row_text (side b) (view b)) (rev (range (side b - 1))) ++ [footer (side b)])) as [post ->].
      unfold row_text. replace (side b - 1 + 1) with (side b) by lia. rewrite E4. simpl. eauto. }
    rewrite E3 in E5.
    eapply strip_ends; [exact E5|exact Sa|exact E2|]. apply letter_no_lf. lia. }
  apply split_on_join.
  - destruct lines; discriminate.
  - apply Forall_app. split; [|constructor; [apply footer_no_lf; auto|constructor]].
    unfold lines. apply Forall_map. rewrite Forall_forall. intros row I.
    apply in_rev, In_range in I. apply row_text_no_lf. lia.
Qed.

Lemma nth_rev_range n k : 0 <= k < n -> nth_error (rev (range n)) (Z.to_nat k) = Some (n - 1 - k).
Proof.
  intros H. assert (exists m, n = Z.of_nat m) as [m ->] by (exists (Z.to_nat n); lia).
  revert k H. induction m as [|m IH]; intros k H; [lia|].
  rewrite rev_range by lia. destruct (Z.eq_dec k 0) as [->|N].
  - simpl. f_equal. lia.
  - replace (Z.to_nat k) with (S (Z.to_nat (k - 1))) by lia. cbn [nth_error].
    replace (Z.of_nat (S m) - 1) with (Z.of_nat m) by lia. rewrite IH by lia. f_equal. lia.
Qed.

Lemma render_readable size pos : 2 <= size <= 25 ->
  readable (map (row_text size pos) (rev (range size)) ++ [footer size]) size (if 9 <? size then 1 else 0) pos.
Proof.
  intros Hs row col [Hr Hc]. cbn [fst snd] in *.
  exists (row_text size pos row).
  destruct (point_string_two (pos (row, col))) as (a & b & E & _ & _ & D).
  exists b. split; [|split; [|exact D]].
  - unfold py_nth. rewrite nth_error_app1.
    + rewrite (map_nth_error (row_text size pos) _ _ (d := row)); auto.
      rewrite nth_rev_range by lia. f_equal. lia.
    + rewrite map_length, rev_length. unfold range. rewrite map_length, seq_length. lia.
  - unfold py_nth, row_text. pose proof (row_start_length size (row + 1) Hs ltac:(lia)) as L.
    rewrite nth_error_app2 by (destruct (9 <? size); lia).
    replace (Z.to_nat (3 * (col + 1) + (if 9 <? size then 1 else 0))%Z - List.length (row_start size (row + 1)%Z))%nat
      with (3 * Z.to_nat col + 1)%nat by (destruct (9 <? size); lia).
    rewrite (nth_join2 _ (Z.to_nat col) a b); auto.
    + rewrite (map_nth_error _ _ _ (d := col)); [rewrite E; auto|].
      apply nth_range. lia.
    + apply Forall_map. rewrite Forall_forall. intros c _.
      destruct (point_string_two (pos (row, c))) as (u & v & -> & _). reflexivity.
Qed.

Lemma C07_proof pick s b given : 2 <= s <= 25 -> reachable s b ->
  match given with None => True | Some b0 => reachable s b0 /\ is_empty b0 = true end ->
  exists text b', render_board b = Ok text /\ interpret_diagram pick text s given = Ok b' /\
    reachable s b' /\ same_on s (view b') (view b).
Proof.
  intros Hs HR Hg. destruct (reachable_good s b HR) as [G Es]. subst s.
  assert (wf b) as W by (apply G).
  destruct (render_board_text b W Hs) as (text & E1 & E2).
  assert (legal (side b) (view b)) as L by (apply (C02_proof (side b) b HR)).
  assert (exists b0, match given with
          | None => new_board (side b)
          | Some g => if negb (side g =? side b) then Err ValueError
                      else if negb (is_empty g) then Err ValueError else Ok g
          end = Ok b0 /\ reachable (side b) b0 /\ side b0 = side b /\ same_on (side b) (view b0) (fun _ => None))
    as (b0 & E3 & R0 & S0 & V0).
  { destruct given as [g|].
    - destruct Hg as [Rg Eg]. destruct (C02_proof _ _ Rg) as (Sg & _ & V). rewrite Sg, Z.eqb_refl, Eg.
      exists g. cbn [negb]. repeat split; auto. intros p Hp. apply V; auto.
    - destruct (new_board (side b)) as [b0|] eqn:E0.
      + exists b0. destruct (new_board_good _ _ E0) as (_ & S0 & V0). repeat split; auto.
        * apply reach_new. exact E0.
        * intros p _. apply V0.
      + exfalso. unfold new_board in E0. destruct (Z.ltb_spec (side b) 2); [lia|discriminate]. }
  exists text.
  destruct (diagram_loop_ok pick _ _ _ _ L (render_readable (side b) (view b) Hs)
              (board_points (side b)) [] b0 eq_refl R0) as (b' & E4 & R' & V').
  { intros p Hp. rewrite (V0 p Hp). reflexivity. }
  exists b'. split; [exact E1|]. split; [|split; auto].
  unfold interpret_diagram. rewrite E3. cbn [bind]. rewrite E2, S0. unfold point in *. rewrite E4. reflexivity.
Qed.
