(** Proofs about the MCTS tuner's cells and scales (C40, C42). *)
From Coq Require Import QArith Qround Lqa Qfield.
From Verif Require Import Base MctsModel MctsSpec.
Open Scope Z_scope.

Definition positive (splits : list nat) : Prop := Forall (fun s => (1 <= s)%nat) splits.

Lemma product_cons x l : product (x :: l) = (x * product l)%nat.
Proof. reflexivity. Qed.
Lemma fold_left_mul l : forall a, fold_left Nat.mul l a = (a * product l)%nat.
Proof. induction l as [|x l IH]; intros a; [cbn; lia|]. cbn [fold_left]. rewrite IH, product_cons. lia. Qed.
Lemma branching_product l : branching l = product l.
Proof. unfold branching. rewrite fold_left_mul. lia. Qed.
Lemma product_pos l : positive l -> (1 <= product l)%nat.
Proof. induction 1 as [|x l H _ IH]; [cbn; lia|]. rewrite product_cons. nia. Qed.
Lemma product_app a b : product (a ++ b) = (product a * product b)%nat.
Proof. induction a as [|x a IH]; cbn [app]; [cbn; lia|]. rewrite !product_cons, IH. lia. Qed.
Lemma product_one x : product [x] = x.
Proof. cbn. lia. Qed.

Lemma coordinates_snoc l s i : coordinates (l ++ [s]) i = coordinates l (i / s)%nat ++ [(i mod s)%nat].
Proof. unfold coordinates. rewrite rev_app_distr. reflexivity. Qed.

Lemma rank_snoc l : forall c s d, List.length c = List.length l -> rank (l ++ [s]) (c ++ [d]) = (rank l c * s + d)%nat.
Proof.
  induction l as [|x l IH]; intros [|y c] s d E; try discriminate; [cbn; lia|].
  cbn [app rank]. rewrite IH by (cbn in E; lia). rewrite product_app, product_one. lia.
Qed.

Lemma coordinates_child l : positive l -> forall i, (i < product l)%nat -> is_child l i (coordinates l i).
Proof.
  induction l as [|s l IH] using rev_ind; intros PO i LT.
  - cbn in LT. split; [constructor|]. cbn. lia.
  - apply Forall_app in PO. destruct PO as [PO PS]. inversion PS as [|? ? P1 _]; subst. rewrite product_app, product_one in LT.
    rewrite coordinates_snoc. destruct (IH PO (i / s)%nat) as [F R].
    { apply Nat.div_lt_upper_bound; [lia|]. lia. }
    split.
    + apply Forall2_app; [exact F|]. constructor; [|constructor]. apply Nat.mod_upper_bound. lia.
    + rewrite rank_snoc by (clear -F; induction F; cbn; congruence). rewrite R. pose proof (Nat.div_mod i s ltac:(lia)). lia.
Qed.

Lemma rank_lt l : forall c, Forall2 lt c l -> (rank l c < product l)%nat.
Proof.
  induction l as [|s l IH]; intros c F; inversion F as [|x ? c' ? L F']; subst; [cbn; lia|].
  specialize (IH _ F'). rewrite product_cons. cbn [rank]. nia.
Qed.

Lemma rank_inj l : forall c c', Forall2 lt c l -> Forall2 lt c' l -> rank l c = rank l c' -> c = c'.
Proof.
  induction l as [|s l IH]; intros c c' F F' E; inversion F as [|x ? c1 ? L F1]; subst; inversion F' as [|x' ? c1' ? L' F1']; subst; [reflexivity|].
  cbn [rank] in E. pose proof (rank_lt _ _ F1). pose proof (rank_lt _ _ F1').
  assert (x = x') by nia. subst x'. f_equal. apply IH; auto. lia.
Qed.

Lemma nth_cube l i c : positive l -> (nth_error (cube_coordinates l) i = Some c <-> is_child l i c).
Proof.
  intros PO. unfold cube_coordinates. rewrite branching_product. split.
  - intros E. rewrite nth_error_map in E. destruct (nth_error (seq 0 (product l)) i) as [k|] eqn:E1; [|discriminate].
    assert (i < product l)%nat as LT. { rewrite <- (seq_length (product l) 0). apply nth_error_Some. congruence. }
    apply (nth_error_nth _ _ 0%nat) in E1. rewrite seq_nth in E1 by exact LT. subst k. cbn in E. injection E as <-. apply coordinates_child; auto.
  - intros [F R]. pose proof (rank_lt _ _ F) as LT. rewrite R in LT.
    rewrite nth_error_map, (nth_error_nth' _ 0%nat) by (rewrite seq_length; exact LT). rewrite seq_nth by exact LT. cbn [option_map Nat.add]. f_equal.
    destruct (coordinates_child l PO i LT) as [F1 R1]. apply (rank_inj l); congruence.
Qed.

(** ** The loop follows the cells *)
Inductive frame : list Q -> list Q -> list interval -> Prop :=
| frame_nil : frame [] [] []
| frame_cons a b i lo br r : (a == fst i)%Q -> (b == snd i - fst i)%Q -> frame lo br r -> frame (a :: lo) (b :: br) (i :: r).

Lemma qn_pos n : (1 <= n)%nat -> (0 < qn n)%Q.
Proof. intros. unfold qn, Qlt. cbn. lia. Qed.
Lemma qn_S n : (qn (S n) == qn n + 1)%Q.
Proof. unfold qn. rewrite Nat2Z.inj_succ. unfold Z.succ. rewrite inject_Z_plus. reflexivity. Qed.
Lemma qn_nonneg n : (0 <= qn n)%Q.
Proof. unfold qn, Qle. cbn. lia. Qed.

Lemma frame_step splits coords r r' : parts splits coords r r' -> positive splits -> forall lo br, frame lo br r ->
  frame (zip_with (fun l d => l + d)%Q lo (zip_with (fun b coord => b * qn coord)%Q (zip_with (fun f split => f / qn split)%Q br splits) coords))
        (zip_with (fun f split => f / qn split)%Q br splits) r'.
Proof.
  induction 1 as [|s c i j splits coords r r' P H IH]; intros PO lo br F; inversion F as [|a b ? lo' br' ? A B F']; subst.
  - cbn. constructor.
  - inversion PO as [|? ? P1 PO']; subst. cbn [zip_with]. destruct P as [PA PB]. pose proof (qn_pos s P1) as SP.
    assert (~ qn s == 0)%Q as NZ by (intros Z; rewrite Z in SP; exact (Qlt_irrefl _ SP)).
    constructor; [| |apply IH; auto].
    + rewrite PA, A, B. field. exact NZ.
    + rewrite PA, PB, B, qn_S. field. exact NZ.
Qed.

Lemma frame_middle lo br r : frame lo br r ->
  Forall2 middle (zip_with (fun f breadth => f + (1 # 2) * breadth)%Q lo br) r.
Proof.
  induction 1 as [|a b i lo br r A B F IH]; cbn [zip_with]; constructor; [|exact IH].
  unfold middle. rewrite A, B. field.
Qed.

Lemma loop_cell tp r path r' : cell (tp_splits tp) r path r' -> positive (tp_splits tp) -> forall lo br, frame lo br r ->
  exists l, path_loop tp lo br path = Ok l /\ Forall2 middle l r'.
Proof.
  induction 1 as [r|r i coords r1 path r2 CH PA C IH]; intros PO lo br F.
  - cbn [path_loop]. eexists. split; [reflexivity|]. apply frame_middle. exact F.
  - cbn [path_loop]. apply (nth_cube _ _ _ PO) in CH. rewrite CH. apply IH; auto. eapply frame_step; eauto.
Qed.

Lemma frame_unit splits : frame (repeat 0%Q (List.length splits)) (repeat 1%Q (List.length splits)) (unit_cube splits).
Proof. induction splits as [|s l IH]; cbn; constructor; auto; cbn; ring. Qed.

Lemma parameters_middle tp path r : positive (tp_splits tp) -> cell_of (tp_splits tp) path r ->
  exists l, parameters_for_path tp path = Ok l /\ Forall2 middle l r.
Proof. intros PO C. unfold parameters_for_path. apply (loop_cell tp _ _ _ C PO). apply frame_unit. Qed.

(** ** Cells are inside their parents *)
Definition inside (j i : interval) : Prop := (fst i <= fst j)%Q /\ (fst j < snd j)%Q /\ (snd j <= snd i)%Q.
Definition proper (i : interval) : Prop := (fst i < snd i)%Q.

Lemma frac_bounds s c : (c < s)%nat -> (0 <= qn c / qn s)%Q /\ (qn c / qn s < qn (S c) / qn s)%Q /\ (qn (S c) / qn s <= 1)%Q.
Proof.
  intros LT. assert (0 < qn s)%Q as SP by (apply qn_pos; lia).
  assert (qn (S c) <= qn s)%Q as LE by (unfold qn, Qle; cbn; lia).
  assert (qn c < qn (S c))%Q as L2 by (unfold qn, Qlt; cbn; lia). pose proof (qn_nonneg c).
  split; [|split].
  - apply Qle_shift_div_l; [exact SP|]. lra.
  - apply Qlt_shift_div_r; [exact SP|]. setoid_replace (qn (S c) / qn s * qn s)%Q with (qn (S c)) by (field; lra). exact L2.
  - apply Qle_shift_div_r; [exact SP|]. lra.
Qed.

Lemma part_inside s c i j : (c < s)%nat -> proper i -> part s c i j -> inside j i /\ proper j.
Proof.
  intros LT PI [PA PB]. destruct (frac_bounds s c LT) as (F1 & F2 & F3). unfold proper, inside in *.
  set (a := (qn c / qn s)%Q) in *. set (b := (qn (S c) / qn s)%Q) in *. clearbody a b.
  assert (0 < snd i - fst i)%Q as W by lra. set (w := (snd i - fst i)%Q) in *.
  assert (fst j < snd j)%Q as JJ by (rewrite PA, PB; assert (w * a < w * b)%Q by (apply Qmult_lt_l; auto); lra).
  split; [|exact JJ]. split; [|split; [exact JJ|]].
  - rewrite PA. assert (0 <= w * a)%Q by (apply Qmult_le_0_compat; lra). lra.
  - rewrite PB. assert (w * b <= w * 1)%Q by (apply Qmult_le_l; auto). unfold w in *. lra.
Qed.

Lemma parts_inside splits coords r r' : parts splits coords r r' -> Forall2 lt coords splits -> Forall proper r ->
  Forall2 inside r' r /\ Forall proper r'.
Proof.
  induction 1 as [|s c i j splits coords r r' P H IH]; intros F PR; [split; constructor|].
  inversion F; subst. inversion PR; subst. destruct (part_inside s c i j) as [A B]; auto. destruct IH as [C D]; auto.
Qed.

Lemma inside_trans k j i : inside k j -> inside j i -> inside k i.
Proof. unfold inside. intros (A & B & C) (D & E & F). repeat split; lra. Qed.
Lemma inside_refl i : proper i -> inside i i.
Proof. unfold inside, proper. intros. repeat split; lra. Qed.

Lemma Forall2_inside_trans a b c : Forall2 inside a b -> Forall2 inside b c -> Forall2 inside a c.
Proof.
  intros H. revert c. induction H as [|x y a b I H IH]; intros c F; inversion F; subst; constructor; auto.
  eapply inside_trans; eauto.
Qed.
Lemma Forall2_inside_refl r : Forall proper r -> Forall2 inside r r.
Proof. induction 1; constructor; auto. apply inside_refl. auto. Qed.

Lemma cell_inside splits r path r' : cell splits r path r' -> Forall proper r -> Forall2 inside r' r /\ Forall proper r'.
Proof.
  induction 1 as [r|r i coords r1 path r2 [CH _] PA C IH]; intros PR; [split; [apply Forall2_inside_refl|]; exact PR|].
  destruct (parts_inside _ _ _ _ PA CH PR) as [A B]. destruct (IH B) as [D E]. split; [|exact E]. eapply Forall2_inside_trans; eauto.
Qed.

Lemma unit_proper splits : Forall proper (unit_cube splits).
Proof. induction splits; cbn; constructor; auto. reflexivity. Qed.

Lemma middle_inside l r i : Forall2 middle l r -> Forall2 inside r i -> Forall2 (fun x j => fst j < x < snd j)%Q l i.
Proof.
  intros H. revert i. induction H as [|x j l r M H IH]; intros i F; inversion F as [|? k ? i' I F']; subst; constructor; auto.
  unfold middle, inside in *. destruct I as (A & B & C). assert (x == (1#2) * fst j + (1#2) * snd j)%Q as M' by (rewrite M; field). clear M. split; lra.
Qed.

(** ** Every point is in exactly one cell of each depth *)
Lemma part_of s i x : (1 <= s)%nat -> proper i -> within x i -> exists c j, (c < s)%nat /\ part s c i j /\ within x j /\ proper j.
Proof.
  intros SP PI [X1 X2]. unfold proper in PI. pose proof (qn_pos s SP) as QS.
  set (w := (snd i - fst i)%Q). assert (0 < w)%Q as W by (unfold w; lra).
  set (y := ((x - fst i) / w * qn s)%Q).
  assert (0 <= (x - fst i) / w)%Q as Y0 by (apply Qle_shift_div_l; lra).
  assert ((x - fst i) / w < 1)%Q as Y1 by (apply Qlt_shift_div_r; unfold w in *; lra).
  assert (0 <= y)%Q as YA by (apply Qmult_le_0_compat; lra).
  assert (y < qn s)%Q as YB. { unfold y. assert ((x - fst i) / w * qn s < 1 * qn s)%Q by (apply Qmult_lt_r; auto). lra. }
  pose proof (Qfloor_le y) as FL. pose proof (Qlt_floor y) as FU.
  assert (0 <= Qfloor y) as F0. { change 0 with (Qfloor (inject_Z 0)) at 1. apply Qfloor_resp_le. exact YA. }
  assert (Qfloor y < Z.of_nat s) as F1. { rewrite Zlt_Qlt. unfold qn in YB. lra. }
  set (c := Z.to_nat (Qfloor y)).
  assert (qn c == inject_Z (Qfloor y))%Q as QC by (unfold qn, c; rewrite Z2Nat.id by lia; reflexivity).
  assert (c < s)%nat as CS by (unfold c; lia).
  assert (x == fst i + w * (y / qn s))%Q as XE by (unfold y; field; split; lra).
  exists c, (fst i + w * (qn c / qn s), fst i + w * (qn (S c) / qn s))%Q.
  assert (part s c i (fst i + w * (qn c / qn s), fst i + w * (qn (S c) / qn s))%Q) as PA by (split; reflexivity).
  split; [exact CS|]. split; [exact PA|]. split; [|exact (proj2 (part_inside _ _ _ _ CS PI PA))]. unfold within. cbn [fst snd]. rewrite inject_Z_plus in FU. change (inject_Z 1) with 1%Q in FU.
  assert (qn c <= y)%Q as A by lra. assert (y < qn (S c))%Q as B by (rewrite qn_S; lra). split.
  - rewrite XE. assert (w * (qn c / qn s) <= w * (y / qn s))%Q; [|lra]. apply Qmult_le_l; auto. apply Qle_shift_div_l; auto.
    setoid_replace (qn c / qn s * qn s)%Q with (qn c) by (field; lra). exact A.
  - rewrite XE. assert (w * (y / qn s) < w * (qn (S c) / qn s))%Q; [|lra]. apply Qmult_lt_l; auto. apply Qlt_shift_div_l; auto.
    setoid_replace (y / qn s * qn s)%Q with y by (field; lra). exact B.
Qed.

Lemma part_sep s c c' i j j' x : (c < c')%nat -> (c' < s)%nat -> proper i -> part s c i j -> part s c' i j' -> within x j -> within x j' -> False.
Proof.
  intros LT L2 PI [_ PB] [PA _] [_ X2] [X1 _]. unfold proper in PI. assert (0 < qn s)%Q as QS by (apply qn_pos; lia).
  set (w := (snd i - fst i)%Q) in *. assert (0 < w)%Q as W by (unfold w; lra).
  assert (qn (S c) <= qn c')%Q as LE by (unfold qn, Qle; cbn; lia).
  assert (w * (qn (S c) / qn s) <= w * (qn c' / qn s))%Q.
  { apply Qmult_le_l; auto. apply Qle_shift_div_l; auto. setoid_replace (qn (S c) / qn s * qn s)%Q with (qn (S c)) by (field; lra). exact LE. }
  lra.
Qed.

Lemma parts_of splits r x : positive splits -> List.length r = List.length splits -> Forall proper r -> Forall2 within x r ->
  exists coords r', Forall2 lt coords splits /\ parts splits coords r r' /\ Forall2 within x r' /\ Forall proper r'.
Proof.
  intros PO. revert r x. induction PO as [|s l S1 PO IH]; intros [|i r] x LR PR WX; try discriminate; inversion WX as [|q ? x' ? Q1 WX']; subst.
  - exists [], []. do 3 (split; [constructor|]). constructor.
  - inversion PR as [|? ? P1 PR']; subst. destruct (IH r x') as (cs & r' & A & B & C & D); auto.
    destruct (part_of s i q S1 P1 Q1) as (c & j & A1 & B1 & C1 & D1).
    exists (c :: cs), (j :: r'). do 3 (split; [constructor; auto|]). constructor; auto.
Qed.

Lemma parts_unique splits : forall cs cs' r r1 r2 x, Forall2 lt cs splits -> Forall2 lt cs' splits -> Forall proper r ->
  parts splits cs r r1 -> parts splits cs' r r2 -> Forall2 within x r1 -> Forall2 within x r2 -> cs = cs'.
Proof.
  induction splits as [|s l IH]; intros cs cs' r r1 r2 x F1 F2 PR P1 P2 W1 W2; inversion F1 as [|c ? cs1 ? L1 F1']; subst; inversion F2 as [|c' ? cs2 ? L2 F2']; subst; [reflexivity|].
  inversion P1 as [|? ? i j ? ? r0 r1' PA P1']; subst. inversion P2 as [|? ? ? j' ? ? ? r2' PA' P2']; subst.
  inversion W1 as [|q ? x' ? WA WX]; subst. inversion W2 as [|? ? ? ? WA' WX']; subst. inversion PR as [|? ? PI PR']; subst. f_equal.
  - destruct (Nat.lt_trichotomy c c') as [L|[E|L]]; [exfalso|exact E|exfalso].
    + exact (part_sep s c c' i j j' q L L2 PI PA PA' WA WA').
    + exact (part_sep s c' c i j' j q L L1 PI PA' PA WA' WA).
  - eapply IH; eauto.
Qed.

Lemma within_inside x a b : Forall2 within x a -> Forall2 inside a b -> Forall2 within x b.
Proof.
  intros H. revert b. induction H as [|q i x a W H IH]; intros b F; inversion F; subst; constructor; auto.
  unfold within, inside in *. destruct W, H2 as (A & B & C). split; lra.
Qed.

Lemma parts_length splits cs r r' : parts splits cs r r' -> List.length r' = List.length splits.
Proof. induction 1; cbn; congruence. Qed.

(** Cells which are the same up to equality of rational numbers. *)
Definition same (r s : list interval) : Prop := Forall2 (fun i j => fst i == fst j /\ snd i == snd j)%Q r s.
Lemma same_within x r s : same r s -> Forall2 within x r -> Forall2 within x s.
Proof.
  intros H. revert x. induction H as [|i j r s [A B] H IH]; intros x W; inversion W as [|q ? x' ? [W1 W2] WX]; subst; constructor; auto.
  split; lra.
Qed.

Lemma tiles splits d : positive splits -> forall r x, List.length r = List.length splits -> Forall proper r -> Forall2 within x r ->
  exists path r', List.length path = d /\ cell splits r path r' /\ Forall2 within x r'.
Proof.
  intros PO. induction d as [|d IH]; intros r x LR PR WX.
  - exists [], r. split; [reflexivity|]. split; [constructor|exact WX].
  - destruct (parts_of splits r x PO LR PR WX) as (cs & r1 & A & B & C & D).
    destruct (IH r1 x (parts_length _ _ _ _ B) D C) as (path & r2 & E & F & G).
    exists (rank splits cs :: path), r2. split; [cbn; congruence|]. split; [|exact G]. econstructor; eauto. split; auto.
Qed.

Lemma parts_same splits : forall cs r s r1, same r s -> parts splits cs r r1 -> exists s1, parts splits cs s s1 /\ same r1 s1.
Proof.
  intros cs r s r1 SA P. revert s SA. induction P as [|sp c i j splits cs r r' [PA PB] P IH]; intros s SA; inversion SA as [|? k ? s' [A B] SA']; subst.
  - exists []. split; constructor.
  - destruct (IH _ SA') as (s1 & D & E). exists (j :: s1). split; constructor; auto; [|split; reflexivity].
    split; rewrite <- A, <- B; assumption.
Qed.

Lemma parts_det splits cs r r1 r2 : parts splits cs r r1 -> parts splits cs r r2 -> same r1 r2.
Proof.
  intros P. revert r2. induction P as [|s c i j splits cs r r' [PA PB] P IH]; intros r2 P2; inversion P2 as [|? ? ? j' ? ? ? r2' [PA' PB'] P2']; subst; constructor; auto.
  - split; [rewrite PA, PA'|rewrite PB, PB']; reflexivity.
  - apply IH. exact P2'.
Qed.

Lemma cell_same splits r path r' : cell splits r path r' -> forall s, same r s -> exists s', cell splits s path s' /\ same r' s'.
Proof.
  induction 1 as [r|r i coords r1 path r2 CH PA C IH]; intros s SA; [exists s; split; [constructor|exact SA]|].
  destruct (parts_same _ _ _ _ _ SA PA) as (s1 & A & B). destruct (IH s1 B) as (s2 & D & E). exists s2. split; [|exact E]. econstructor; eauto.
Qed.
Lemma same_sym r s : same r s -> same s r.
Proof. induction 1 as [|i j r s [A B] H IH]; constructor; auto. split; symmetry; assumption. Qed.

Lemma tiles_unique splits r path r' : cell splits r path r' -> forall path2 r2 x, List.length path2 = List.length path ->
  Forall proper r -> cell splits r path2 r2 -> Forall2 within x r' -> Forall2 within x r2 -> path = path2.
Proof.
  induction 1 as [r|r i coords r1 path r2 [CH RK] PA C IH]; intros path2 r3 x LP PR C2 W1 W2.
  - destruct path2; [reflexivity|discriminate].
  - inversion C2 as [|? i2 coords2 r1' path2' ? [CH2 RK2] PA2 C2']; subst; [discriminate|].
    destruct (parts_inside _ _ _ _ PA CH PR) as [I1 PR1]. destruct (parts_inside _ _ _ _ PA2 CH2 PR) as [I2 PR2].
    pose proof (within_inside _ _ _ W1 (proj1 (cell_inside _ _ _ _ C PR1))) as V1.
    pose proof (within_inside _ _ _ W2 (proj1 (cell_inside _ _ _ _ C2' PR2))) as V2.
    assert (coords = coords2) by (exact (parts_unique splits coords coords2 r r1 r1' x CH CH2 PR PA PA2 V1 V2)). subst coords2. f_equal.
    destruct (cell_same _ _ _ _ C2' r1 (parts_det _ _ _ _ _ PA2 PA)) as (s' & D & E).
    eapply IH; [cbn in LP; lia|exact PR1|exact D|exact W1|]. eapply same_within; eauto.
Qed.

(** ** Scales *)
Lemma truncate_nonneg x : (0 <= x)%Q -> truncate x = Qfloor x.
Proof. intros H. unfold truncate. apply Qle_bool_iff in H. rewrite H. reflexivity. Qed.

Lemma explicit_index {T} (values : list T) f k : (k < List.length values)%nat ->
  (qn k / qn (List.length values) <= f < qn (S k) / qn (List.length values))%Q ->
  exists v, nth_error values k = Some v /\ explicit_scale values f = Ok v.
Proof.
  intros LT [F1 F2]. set (n := List.length values) in *. assert (0 < qn n)%Q as NP by (apply qn_pos; lia).
  assert (qn k <= qn n * f)%Q as A.
  { apply (Qmult_le_r _ _ (qn n) NP) in F1. setoid_replace (qn k / qn n * qn n)%Q with (qn k) in F1 by (field; lra). lra. }
  assert (qn n * f < qn (S k))%Q as B.
  { apply (Qmult_lt_r _ _ (qn n) NP) in F2. setoid_replace (qn (S k) / qn n * qn n)%Q with (qn (S k)) in F2 by (field; lra). lra. }
  assert (Qfloor (qn n * f) = Z.of_nat k) as FL.
  { pose proof (Qfloor_le (qn n * f)) as L1. pose proof (Qlt_floor (qn n * f)) as L2.
    unfold qn in A, B. assert (inject_Z (Z.of_nat k) < inject_Z (Qfloor (qn n * f) + 1))%Q as X1 by (unfold qn in *; lra).
    assert (inject_Z (Qfloor (qn n * f)) < inject_Z (Z.of_nat (S k)))%Q as X2 by (unfold qn in *; lra).
    rewrite <- Zlt_Qlt in X1, X2. lia. }
  destruct (nth_error values k) as [v|] eqn:E; [|apply nth_error_None in E; unfold n in LT; lia].
  exists v. split; [reflexivity|]. unfold explicit_scale. fold n. rewrite truncate_nonneg by (pose proof (qn_nonneg k); lra). rewrite FL.
  unfold py_nth. fold n. destruct (Z.of_nat k <? 0) eqn:E1; [lia|]. destruct (Z.of_nat k >=? Z.of_nat n) eqn:E2; [lia|].
  cbn [orb]. rewrite E1, Nat2Z.id, E. reflexivity.
Qed.

Lemma unit_fraction (n : nat) (f : Q) : (1 <= n)%nat -> (0 <= f < 1)%Q ->
  exists k, (k < n)%nat /\ (qn k / qn n <= f < qn (S k) / qn n)%Q.
Proof.
  intros N1 [F0 F1]. destruct (part_of n (0, 1)%Q f N1) as (k & j & KL & [PA PB] & [W1 W2] & _).
  - reflexivity.
  - split; cbn; lra.
  - exists k. split; [exact KL|]. cbn [fst snd] in PA, PB. lra.
Qed.

Lemma explicit_total {T} (values : list T) f : values <> [] -> (0 <= f < 1)%Q ->
  exists k v, nth_error values k = Some v /\ explicit_scale values f = Ok v /\
    (qn k / qn (List.length values) <= f < qn (S k) / qn (List.length values))%Q.
Proof.
  intros NE F. destruct (unit_fraction (List.length values) f) as (k & KL & KF); [destruct values; [congruence|cbn; lia]|exact F|].
  destruct (explicit_index values f k KL KF) as (v & A & B). exists k, v. auto.
Qed.

Lemma explicit_beyond {T} (values : list T) f : (1 <= f)%Q -> explicit_scale values f = Err IndexError.
Proof.
  intros F. unfold explicit_scale. set (n := List.length values).
  assert (qn n <= qn n * f)%Q as L. { pose proof (qn_nonneg n). assert (0 <= qn n * (f - 1))%Q by (apply Qmult_le_0_compat; lra). lra. }
  rewrite truncate_nonneg by (pose proof (qn_nonneg n); lra). assert (Z.of_nat n <= Qfloor (qn n * f)) as G.
  { rewrite <- (Qfloor_Z (Z.of_nat n)). apply Qfloor_resp_le. exact L. }
  unfold py_nth. fold n. destruct (Qfloor (qn n * f) <? 0) eqn:E1; [lia|]. destruct (Qfloor (qn n * f) >=? Z.of_nat n) eqn:E2; [|lia].
  rewrite orb_true_r. reflexivity.
Qed.

(** The cells of depth [d] form a grid. *)
Definition grid (d : nat) (s : nat) (i : interval) : Prop :=
  exists k, (k < s ^ d)%nat /\ (fst i == qn k / qn (s ^ d))%Q /\ (snd i == qn (S k) / qn (s ^ d))%Q.

Lemma qn_mul a b : (qn (a * b) == qn a * qn b)%Q.
Proof. unfold qn. rewrite Nat2Z.inj_mul, inject_Z_mult. reflexivity. Qed.
Lemma qn_add a b : (qn (a + b) == qn a + qn b)%Q.
Proof. unfold qn. rewrite Nat2Z.inj_add, inject_Z_plus. reflexivity. Qed.
Lemma pow_pos s d : (1 <= s)%nat -> (1 <= s ^ d)%nat.
Proof. intros H. induction d as [|d IH]; cbn; [lia|]. nia. Qed.

Lemma grid_part s c i j d : (c < s)%nat -> grid d s i -> part s c i j -> grid (S d) s j.
Proof.
  intros CS (k & KL & A & B) [PA PB]. exists (k * s + c)%nat.
  assert (0 < qn s)%Q as P1 by (apply qn_pos; lia). assert (0 < qn (s ^ d))%Q as P2 by (apply qn_pos, pow_pos; lia).
  replace (s ^ S d)%nat with (s ^ d * s)%nat by (cbn; lia). split; [nia|].
  replace (S (k * s + c)) with (k * s + S c)%nat by lia. split.
  - rewrite PA, A, B, qn_S, qn_add, !qn_mul. field. split; lra.
  - rewrite PB, A, B, !qn_S, qn_add, !qn_mul, qn_S. field. split; lra.
Qed.

Lemma grid_parts d splits coords r r' : parts splits coords r r' -> Forall2 lt coords splits -> Forall2 (grid d) splits r -> Forall2 (grid (S d)) splits r'.
Proof.
  induction 1 as [|s c i j splits coords r r' P H IH]; intros F G; [constructor|]. inversion F; subst. inversion G; subst. constructor; auto.
  eapply grid_part; eauto.
Qed.
Lemma grid_cell splits r path r' : cell splits r path r' -> forall d, Forall2 (grid d) splits r -> Forall2 (grid (d + List.length path)) splits r'.
Proof.
  induction 1 as [r|r i coords r1 path r2 [CH _] PA C IH]; intros d G; [cbn [List.length]; rewrite Nat.add_0_r; exact G|].
  cbn [List.length]. rewrite Nat.add_succ_r, <- Nat.add_succ_l. apply IH. eapply grid_parts; eauto.
Qed.
Lemma grid_unit splits : Forall2 (grid 0) splits (unit_cube splits).
Proof. induction splits; cbn; constructor; auto. exists O. cbn. split; [lia|]. split; reflexivity. Qed.

Lemma cell_grid splits path r : cell_of splits path r -> Forall2 (grid (List.length path)) splits r.
Proof. intros C. exact (grid_cell _ _ _ _ C 0%nat (grid_unit splits)). Qed.

Lemma grid_explicit {T} (values : list T) s d i q : grid d s i -> middle q i -> (1 <= s)%nat -> List.length values = (s ^ d)%nat ->
  exists k v, nth_error values k = Some v /\ explicit_scale values q = Ok v /\ (fst i == qn k / qn (s ^ d))%Q.
Proof.
  intros (k & KL & A & B) M S1 LV. unfold middle in M. assert (0 < qn (s ^ d))%Q as P2 by (apply qn_pos, pow_pos; lia).
  assert (fst i < snd i)%Q as LT. { rewrite A, B. destruct (frac_bounds (s ^ d) k KL) as (_ & F & _). exact F. }
  assert (q == (1#2) * fst i + (1#2) * snd i)%Q as M' by (rewrite M; field). clear M.
  destruct (explicit_index values q k) as (v & E1 & E2).
  - rewrite LV. exact KL.
  - rewrite LV. rewrite <- A, <- B. split; lra.
  - exists k, v. auto.
Qed.

Lemma linear_bounds lower upper f : (lower <= upper)%Q -> (0 <= f <= 1)%Q -> (lower <= linear_scale lower upper f <= upper)%Q.
Proof.
  intros L [F0 F1]. unfold linear_scale.
  assert (0 <= f * (upper - lower))%Q by (apply Qmult_le_0_compat; lra).
  assert (0 <= (1 - f) * (upper - lower))%Q by (apply Qmult_le_0_compat; lra). split; lra.
Qed.
Lemma linear_mono lower upper f g : (lower < upper)%Q -> ((f < g)%Q <-> (linear_scale lower upper f < linear_scale lower upper g)%Q).
Proof.
  intros L. unfold linear_scale. assert (0 < upper - lower)%Q as W by lra. pose proof (Qmult_lt_r f g _ W) as X. split; intros H.
  - apply X in H. lra.
  - apply X. lra.
Qed.
Lemma linear_onto lower upper y : (lower < upper)%Q -> (lower <= y <= upper)%Q -> exists f, (0 <= f <= 1)%Q /\ (linear_scale lower upper f == y)%Q.
Proof.
  intros L [Y0 Y1]. exists ((y - lower) / (upper - lower))%Q. assert (0 < upper - lower)%Q by lra. split; [split|].
  - apply Qle_shift_div_l; lra.
  - apply Qle_shift_div_r; lra.
  - unfold linear_scale. field. lra.
Qed.
Lemma linear_integer lower upper f : let x := linear_scale lower upper f in let n := linear_scale_integer lower upper f in
  (- (1 # 2) <= x)%Q -> (inject_Z n - (1 # 2) <= x < inject_Z n + (1 # 2))%Q.
Proof.
  cbv zeta. intros X. unfold linear_scale_integer. set (x := linear_scale lower upper f) in *. clearbody x.
  rewrite truncate_nonneg by lra. pose proof (Qfloor_le (x + (1 # 2))) as A. pose proof (Qlt_floor (x + (1 # 2))) as B.
  rewrite inject_Z_plus in B. change (inject_Z 1) with 1%Q in B. split; lra.
Qed.
Lemma linear_integer_bounds (a b : Z) f : 0 <= a -> a <= b -> (0 <= f <= 1)%Q ->
  a <= linear_scale_integer (inject_Z a) (inject_Z b) f <= b.
Proof.
  intros A0 AB F. assert (inject_Z a <= inject_Z b)%Q as L by (rewrite <- Zle_Qle; exact AB).
  destruct (linear_bounds _ _ _ L F) as [B1 B2]. assert (0 <= inject_Z a)%Q as L0 by (change 0%Q with (inject_Z 0); rewrite <- Zle_Qle; exact A0).
  destruct (linear_integer (inject_Z a) (inject_Z b) f) as [N1 N2]; [lra|].
  set (n := linear_scale_integer (inject_Z a) (inject_Z b) f) in *. set (x := linear_scale (inject_Z a) (inject_Z b) f) in *. clearbody n x. split.
  - assert (inject_Z a < inject_Z (n + 1))%Q as X by (rewrite inject_Z_plus; change (inject_Z 1) with 1%Q; lra). rewrite <- Zlt_Qlt in X. lia.
  - assert (inject_Z n < inject_Z (b + 1))%Q as X by (rewrite inject_Z_plus; change (inject_Z 1) with 1%Q; lra). rewrite <- Zlt_Qlt in X. lia.
Qed.
