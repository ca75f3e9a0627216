(** Proofs about [play], [apply_setup] and [area_score]. *)
From Coq Require Import FinFun.
From Verif Require Import Base BoardModel BoardSpec BoardProofs.

(** * Clearing points *)

Lemma clear_points_spec s pts g q :
  gwf s g -> (forall p, In p pts -> on_board s p) -> on_board s q ->
  cell_at (clear_points g pts) q = (if mem_point q pts then None else cell_at g q)
  /\ gwf s (clear_points g pts).
Proof.
  revert g. induction pts as [|p pts IH]; intros g W O Oq; cbn [clear_points fold_left].
  - auto.
  - destruct (IH (set_cell g p None)) as [E W']; auto using gwf_set_cell.
    { intros; apply O; simpl; auto. }
    unfold clear_points in *. split; auto. rewrite E.
    unfold mem_point at 2. cbn [existsb]. fold (mem_point q pts).
    rewrite (cell_at_set_cell s) by (auto; apply O; simpl; auto).
    destruct (point_eqb_spec q p) as [->|N]; simpl.
    + rewrite point_eqb_refl. destruct (mem_point p pts); auto.
    + destruct (point_eqb_spec p q); [congruence|]. reflexivity.
Qed.

Definition group_points (gs : list group) : list point := flat_map g_points gs.

Lemma clear_groups_points g gs : clear_groups g gs = clear_points g (group_points gs).
Proof.
  unfold clear_groups, clear_points, group_points. revert g.
  induction gs as [|h gs IH]; intros g; simpl; auto.
  rewrite fold_left_app. apply IH.
Qed.

(** * Decidability of liberties *)

Definition board_of (s : Z) (pos : position) : board :=
  mkBoard s (map (fun r => map (fun c => pos (r, c)) (range s)) (range s)) false.

Lemma nth_range n i : 0 <= i < n -> nth_error (range n) (Z.to_nat i) = Some i.
Proof.
  intros H. unfold range. rewrite nth_error_map.
  assert (nth_error (seq 0 (Z.to_nat n)) (Z.to_nat i) = Some (Z.to_nat i)) as ->.
  { rewrite (nth_error_nth' _ 0%nat) by (rewrite seq_length; lia).
    rewrite seq_nth by lia. reflexivity. }
  simpl. f_equal. lia.
Qed.

Lemma cell_at_board_of s pos p : on_board s p -> cell_at (grid (board_of s pos)) p = pos p.
Proof.
  intros [H1 H2]. unfold cell_at, board_of; simpl.
  erewrite (nth_error_nth (map _ (range s))).
  2:{ rewrite nth_error_map, nth_range by auto. reflexivity. }
  erewrite nth_error_nth.
  2:{ rewrite nth_error_map, nth_range by auto. reflexivity. }
  destruct p; reflexivity.
Qed.

Lemma lib_dec s pos p : on_board s p -> pos p <> None ->
  has_liberty s pos p \/ ~ has_liberty s pos p.
Proof.
  intros O N. destruct (pos p) as [c|] eqn:E; [|congruence].
  assert (same_on s (cell_at (grid (board_of s pos))) pos) as SO
      by (intros q Oq; apply cell_at_board_of; auto).
  assert (same_on s pos (cell_at (grid (board_of s pos)))) as SO'
      by (intros q Oq; symmetry; apply SO; auto).
  destruct (make_group_ok (fun _ => 0%nat) (board_of s pos) p c O) as (g & _ & G).
  { rewrite cell_at_board_of; auto. }
  destruct G as (_ & _ & _ & _ & G1 & G2). simpl in *.
  destruct (g_surrounded g).
  - right. intro L. apply (proj1 G1 eq_refl). eapply has_liberty_ext; [| |exact L]; auto.
  - left. eapply has_liberty_ext; [| |apply G2]; auto.
Qed.

(** * Positions: facts about the rules *)

Lemma has_liberty_mono s pos pos' c p :
  on_board s p -> pos p = Some c ->
  (forall q, on_board s q -> pos q = Some c -> pos' q = Some c) ->
  (forall q, on_board s q -> pos q = None -> pos' q = None) ->
  has_liberty s pos p -> has_liberty s pos' p.
Proof.
  intros O E Hc Hn (x & l & C & A & Ol & El). exists x, l. repeat split; auto; try apply Ol.
  clear A Ol El l. induction C as [|q r C IH A Or Er]; [constructor|].
  eapply conn_step; eauto. rewrite (Hc p), (Hc r); auto. congruence.
Qed.

Lemma clears_keep s pos c pos' p :
  clears s pos c pos' -> on_board s p -> pos' p <> None -> pos' p = pos p /\
  (pos p = Some c -> has_liberty s pos p).
Proof.
  intros H O N. destruct (H p O) as [H1 H2].
  assert (pos' p = pos p) as E.
  { apply H2. intros D. apply N, H1, D. }
  split; auto. intros Ec. destruct (lib_dec s pos p O) as [L|L]; [congruence|auto|].
  exfalso. apply N, H1. auto.
Qed.

Lemma clears_kept s pos c pos' p :
  clears s pos c pos' -> on_board s p -> (pos p = Some c -> has_liberty s pos p) ->
  pos' p = pos p.
Proof. intros H O L. apply (H p O). intros [E N]. auto. Qed.

(** Removing dead stones keeps the liberties of all others. *)
Lemma clears_liberty s pos c pos' p :
  clears s pos c pos' -> on_board s p -> pos' p <> None -> has_liberty s pos p ->
  has_liberty s pos' p.
Proof.
  intros H O N L. destruct (clears_keep _ _ _ _ _ H O N) as [E1 E2].
  destruct L as (x & l & C & A & Ol & El).
  assert (forall y, connected s pos p y -> on_board s y -> pos' y = pos y) as K.
  { intros y Cy Oy. eapply clears_kept; eauto. intros Ec.
    pose proof (connected_same _ _ _ _ Cy) as Sy.
    apply has_liberty_connected with p; [apply connected_sym; auto|].
    exists x, l. auto. }
  exists x, l. repeat split; auto; try apply Ol.
  - clear A. induction C as [|q r C IH A Or Er]; [constructor|].
    eapply conn_step; eauto. rewrite E1, K; auto.
    eapply conn_step; eauto.
  - rewrite (clears_kept _ _ _ _ _ H Ol); auto. congruence.
Qed.

(** After the opponent is cleared from a legal position plus one stone, and then
    oneself, the position is legal. *)
Lemma go_move_legal s pos p c pos' :
  legal s pos -> on_board s p -> pos p = None -> go_move s pos p c pos' -> legal s pos'.
Proof.
  intros Lg Op Ep (pos2 & H1 & H2) q Oq N.
  destruct (clears_keep _ _ _ _ _ H2 Oq N) as [E2 K2].
  assert (pos2 q <> None) as N2 by congruence.
  destruct (clears_keep _ _ _ _ _ H1 Oq N2) as [E1 K1].
  apply (clears_liberty _ _ _ _ _ H2 Oq N).
  destruct (pos2 q) as [d|] eqn:Ed; [|congruence].
  destruct (colour_eqb_spec d c) as [->|Nd].
  - apply K2. reflexivity.
  - apply (clears_liberty _ _ _ _ _ H1 Oq); [congruence|].
    apply K1. rewrite <- E1. destruct d, c; simpl; congruence.
Qed.

Lemma go_move_det s pos p c pa pb :
  go_move s pos p c pa -> go_move s pos p c pb -> same_on s pa pb.
Proof.
  intros (a2 & A1 & A2) (b2 & B1 & B2).
  assert (forall P e x y, clears s P e x -> clears s P e y -> same_on s x y) as D.
  { intros P e x y X Y q Oq. destruct (X q Oq) as [X1 X2], (Y q Oq) as [Y1 Y2].
    assert (P q = Some e \/ P q <> Some e) as [E|E]
      by (destruct (cell_eqb_spec (P q) (Some e)); auto).
    - destruct (lib_dec s P q Oq) as [L|L]; [congruence| |].
      + rewrite X2, Y2; tauto.
      + rewrite X1, Y1; auto.
    - rewrite X2, Y2; tauto. }
  assert (same_on s a2 b2) as E by (eapply D; eauto).
  assert (same_on s b2 a2) as E' by (intros z Oz; symmetry; apply E; auto).
  intros q Oq. destruct (A2 q Oq) as [X1 X2], (B2 q Oq) as [Y1 Y2].
  rewrite <- (E q Oq) in *.
  assert (a2 q = Some c \/ a2 q <> Some c) as [Ec|Ec]
    by (destruct (cell_eqb_spec (a2 q) (Some c)); auto).
  - destruct (lib_dec s a2 q Oq) as [L|L]; [congruence| |].
    + rewrite X2, Y2; try tauto. intros [_ N]. apply N. eapply has_liberty_ext; eauto.
    + rewrite X1, Y1; auto. split; auto. intros N. apply L. eapply has_liberty_ext; eauto.
  - rewrite X2, Y2; tauto.
Qed.

Section OneMove.
  Variable s : Z.
  Variable pos : position.
  Variable p : point.
  Variable c : colour.
  Hypothesis Lg : legal s pos.
  Hypothesis Op : on_board s p.
  Hypothesis Ep : pos p = None.
  Let pos1 := place pos p (Some c).

  Lemma pos1_p : pos1 p = Some c.
  Proof. unfold pos1, place. rewrite point_eqb_refl. reflexivity. Qed.

  Lemma pos1_other q : q <> p -> pos1 q = pos q.
  Proof. intros N. unfold pos1, place. destruct (point_eqb_spec p q); congruence. Qed.

  Lemma pos1_stone q : pos q <> None -> pos1 q = pos q.
  Proof. intros N. apply pos1_other. congruence. Qed.

  Lemma connected_pos1 q x : pos q <> None -> connected s pos q x -> connected s pos1 q x.
  Proof.
    intros N C. induction C as [|y r C IH A Or Er]; [constructor|].
    eapply conn_step; eauto. rewrite !pos1_stone; auto; congruence.
  Qed.

  (** A stone without liberty after the placement lost its last one to [p]. *)
  Lemma dead_touches q :
    on_board s q -> q <> p -> pos1 q <> None -> ~ has_liberty s pos1 q ->
    exists x, connected s pos1 q x /\ adj x p.
  Proof.
    intros Oq Nq N D. rewrite pos1_other in N by auto.
    destruct (Lg q Oq N) as (x & l & C & A & Ol & El).
    exists x. split; [apply connected_pos1; auto|].
    assert (l = p \/ l <> p) as [<-|Nl] by (destruct (point_eqb_spec l p); auto); auto.
    exfalso. apply D. exists x, l. repeat split; auto; try apply Ol.
    - apply connected_pos1; auto.
    - rewrite pos1_other; auto.
  Qed.

  Lemma own_dead q :
    on_board s q -> pos1 q = Some c -> ~ has_liberty s pos1 q -> connected s pos1 q p.
  Proof.
    intros Oq E D. assert (q = p \/ q <> p) as [->|Nq]
      by (destruct (point_eqb_spec q p); auto); [constructor|].
    destruct (dead_touches q Oq Nq) as (x & C & A); [congruence|auto|].
    eapply conn_step; eauto. rewrite pos1_p. auto.
  Qed.
End OneMove.

(** * The effect of [play] *)

Lemma play_unfold pick b r col c :
  wf b ->
  (~ on_board (side b) (r, col) -> play pick b r col c = (b, Err IndexError)) /\
  (on_board (side b) (r, col) -> cell_at (grid b) (r, col) <> None ->
     play pick b r col c = (b, Err ValueError)).
Proof.
  intros W. unfold play. rewrite (get_spec b r col W).
  destruct (on_boardb_spec (side b) (r, col)) as [O|O]; split; try tauto.
  destruct (cell_at (grid b) (r, col)); congruence.
Qed.

Definition opp_groups (c : colour) (gs : list group) : list group :=
  filter (fun g => colour_eqb (g_colour g) (opponent_of c)) gs.

Definition own_groups (c : colour) (gs : list group) : list group :=
  filter (fun g => colour_eqb (g_colour g) c) gs.

Definition captured_groups (c : colour) (gs : list group) : list group :=
  match gs with
  | [g] => [g]
  | _ => opp_groups c gs
  end.

Lemma groups_split c gs g : In g gs -> In g (opp_groups c gs) \/ In g (own_groups c gs).
Proof.
  intros H. unfold opp_groups, own_groups. rewrite !filter_In.
  destruct (g_colour g), c; simpl; auto.
Qed.

Lemma mem_point_true p l : mem_point p l = true <-> In p l.
Proof. destruct (mem_point_spec p l); intuition congruence. Qed.

Lemma mem_point_false p l : mem_point p l = false <-> ~ In p l.
Proof. destruct (mem_point_spec p l); intuition congruence. Qed.

(** The board is connected as a grid. *)
Lemma grid_closed s (P : point -> Prop) p q :
  (forall x y, on_board s x -> P x -> adj x y -> on_board s y -> P y) ->
  on_board s p -> P p -> on_board s q -> P q.
Proof.
  intros H Op Pp Oq.
  assert (forall n r c, on_board s (r, c) -> P (r, c) ->
            (forall r', Z.abs (r' - r) = Z.of_nat n -> 0 <= r' < s -> P (r', c)) /\
            (forall c', Z.abs (c' - c) = Z.of_nat n -> 0 <= c' < s -> P (r, c'))) as K.
  { intros n r c O0 P0. induction n as [|n [IH1 IH2]].
    - split; intros x E R.
      + replace x with r by lia. auto.
      + replace x with c by lia. auto.
    - unfold on_board in O0; simpl in O0. split; intros x E R.
      + assert (r < x \/ x < r) as [L|L] by lia.
        * apply (H (x - 1, c)); [unfold on_board; simpl; lia|apply IH1; lia|
            unfold adj; simpl; lia|unfold on_board; simpl; lia].
        * apply (H (x + 1, c)); [unfold on_board; simpl; lia|apply IH1; lia|
            unfold adj; simpl; lia|unfold on_board; simpl; lia].
      + assert (c < x \/ x < c) as [L|L] by lia.
        * apply (H (r, x - 1)); [unfold on_board; simpl; lia|apply IH2; lia|
            unfold adj; simpl; lia|unfold on_board; simpl; lia].
        * apply (H (r, x + 1)); [unfold on_board; simpl; lia|apply IH2; lia|
            unfold adj; simpl; lia|unfold on_board; simpl; lia]. }
  destruct p as [r c], q as [r' c'].
  assert (P (r', c)) as P1.
  { apply (proj1 (K (Z.abs_nat (r' - r)) r c Op Pp)); unfold on_board in *; simpl in *; lia. }
  apply (proj2 (K (Z.abs_nat (c' - c)) r' c ltac:(unfold on_board in *; simpl in *; lia) P1));
    unfold on_board in *; simpl in *; lia.
Qed.

Definition ko_result (c : colour) (gs : list group) : res (option point) :=
  match opp_groups c gs with
  | [g] =>
      match g_points g with
      | [kp] =>
          match own_groups c gs with
          | [] => Err IndexError
          | sg :: _ => if Nat.eqb (List.length (g_points sg)) 1 then Ok (Some kp) else Ok None
          end
      | _ => Ok None
      end
  | _ => Ok None
  end.

Section Play.
  Variable pick : nat -> nat.
  Variable b : board.
  Variable p : point.
  Variable c : colour.
  Let s := side b.
  Let pos := cell_at (grid b).
  Hypothesis W : wf b.
  Hypothesis Lg : legal s pos.
  Hypothesis Op : on_board s p.
  Hypothesis Ep : pos p = None.
  Let b1 := mkBoard s (set_cell (grid b) p (Some c)) false.
  Let pos1 := place pos p (Some c).
  Variable gs : list group.
  Hypothesis Fgs : find_surrounded_groups pick b1 = Ok gs.
  Hypothesis Sgs : surrounded_ok b1 gs.

  Lemma b1_cell q : on_board s q -> cell_at (grid b1) q = pos1 q.
  Proof.
    intros Oq. unfold b1, pos1, place; simpl. destruct W as [S1 W1].
    rewrite (cell_at_set_cell s); auto.
  Qed.

  Lemma same1 : same_on s (cell_at (grid b1)) pos1.
  Proof. intros q; apply b1_cell. Qed.

  Lemma same1' : same_on s pos1 (cell_at (grid b1)).
  Proof. intros q Oq; symmetry; apply b1_cell; auto. Qed.

  (** Facts about the groups, restated for [pos1]. *)
  Lemma gs_member g q :
    In g gs -> In q (g_points g) ->
    on_board s q /\ pos1 q = Some (g_colour g) /\ ~ has_liberty s pos1 q.
  Proof.
    intros Hg Hq. destruct Sgs as (S1 & S2 & S3).
    destruct (S1 g Hg) as (x & (G1 & G2 & G3 & G4 & G5) & D). simpl in *.
    apply G4 in Hq. pose proof (connected_on _ _ _ _ Hq G2) as Oq. fold s in Oq.
    split; auto. split.
    - rewrite <- b1_cell by auto. pose proof (connected_same _ _ _ _ Hq) as E.
      etransitivity; [exact E|exact G1].
    - intro L. apply D. eapply has_liberty_connected; [exact Hq|].
      eapply has_liberty_ext; [| |exact L]; auto. exact same1'.
  Qed.

  Lemma gs_complete q :
    on_board s q -> pos1 q <> None -> ~ has_liberty s pos1 q ->
    exists g, In g gs /\ In q (g_points g) /\ pos1 q = Some (g_colour g).
  Proof.
    intros Oq N D. destruct Sgs as (S1 & S2 & S3).
    destruct (S2 q) as (g & Hg & Hq); auto.
    - rewrite b1_cell by auto. exact N.
    - intro L. apply D. eapply has_liberty_ext; [| |exact L]; auto. exact same1.
    - exists g. repeat split; auto. apply (gs_member g q Hg Hq).
  Qed.

  Lemma gs_nonempty g : In g gs -> exists q, In q (g_points g).
  Proof.
    intros Hg. destruct Sgs as (S1 & _). destruct (S1 g Hg) as (x & G & _).
    exists x. apply G. constructor.
  Qed.

  Lemma gs_closed g q q' :
    In g gs -> In q (g_points g) -> connected s pos1 q q' -> In q' (g_points g).
  Proof.
    intros Hg Hq C. destruct Sgs as (S1 & _). destruct (S1 g Hg) as (x & G & _).
    destruct G as (G1 & G2 & G3 & G4 & _). apply G4 in Hq. apply G4.
    eapply connected_trans; [exact Hq|]. eapply connected_ext; [| |exact C].
    - eapply connected_on; eauto.
    - exact same1'.
  Qed.

  Lemma own_has_p g : In g gs -> g_colour g = c -> In p (g_points g).
  Proof.
    intros Hg Hc. destruct (gs_nonempty g Hg) as (q & Hq).
    destruct (gs_member g q Hg Hq) as (Oq & E & D).
    eapply gs_closed; eauto. apply own_dead; auto. change (pos1 q = Some c). congruence.
  Qed.

  (** Two members of [gs] both of the mover's colour coincide in position. *)
  Lemma own_groups_short : (List.length (own_groups c gs) <= 1)%nat.
  Proof.
    destruct Sgs as (_ & _ & S3).
    assert (forall l, ForallOrdPairs
       (fun g h => forall q, In q (g_points g) -> ~ In q (g_points h)) l ->
       (forall g, In g l -> In g gs) -> (List.length (own_groups c l) <= 1)%nat) as H.
    { induction l as [|g l IH]; intros F I; simpl; [lia|]. inv F.
      specialize (IH H2 (fun h Hh => I h (or_intror Hh))).
      destruct (colour_eqb_spec (g_colour g) c) as [E|E]; auto. simpl.
      destruct (own_groups c l) as [|h t] eqn:Eo; simpl; auto. exfalso.
      assert (In h (own_groups c l)) as Hh by (rewrite Eo; simpl; auto).
      apply filter_In in Hh. destruct Hh as [Hh1 Hh2].
      destruct (colour_eqb_spec (g_colour h) c) as [E2|E2]; [|discriminate].
      rewrite Forall_forall in H1. apply (H1 h Hh1 p).
      - apply own_has_p; auto. apply I; simpl; auto.
      - apply own_has_p; auto. apply I; simpl; auto. }
    apply H; auto.
  Qed.

  Lemma length_split : (List.length gs = List.length (opp_groups c gs) + List.length (own_groups c gs))%nat.
  Proof.
    clear. induction gs as [|g l IH]; simpl; auto.
    destruct (g_colour g), c; simpl in *; lia.
  Qed.

  Let cap := captured_groups c gs.
  Let pos' : position := fun q => if mem_point q (group_points cap) then None else pos1 q.

  Lemma cap_incl g : In g cap -> In g gs.
  Proof.
    unfold cap, captured_groups. destruct gs as [|g0 [|g1 l]]; auto;
      unfold opp_groups; rewrite ?filter_In; tauto.
  Qed.

  Lemma cap_on q : In q (group_points cap) -> on_board s q.
  Proof.
    unfold group_points. rewrite in_flat_map. intros (g & Hg & Hq).
    apply (gs_member g q); auto. apply cap_incl; auto.
  Qed.

  Lemma cap_cell q : on_board s q -> cell_at (clear_groups (grid b1) cap) q = pos' q.
  Proof.
    intros Oq. rewrite clear_groups_points. unfold pos'.
    destruct (clear_points_spec s (group_points cap) (grid b1) q) as [E _]; auto.
    - unfold b1. simpl. apply gwf_set_cell. apply W.
    - apply cap_on.
    - rewrite E, b1_cell; auto.
  Qed.

  Lemma cap_gwf : gwf s (clear_groups (grid b1) cap).
  Proof.
    rewrite clear_groups_points.
    apply (clear_points_spec s (group_points cap) (grid b1) p); auto.
    - unfold b1. simpl. apply gwf_set_cell. apply W.
    - apply cap_on.
  Qed.

  Lemma cap_opp g : In g gs -> g_colour g = opponent_of c -> In g cap.
  Proof.
    intros Hg Hc. unfold cap, captured_groups. destruct gs as [|g0 [|g1 l]]; auto.
    unfold opp_groups. rewrite filter_In. split; auto. rewrite Hc.
    destruct c; reflexivity.
  Qed.

  Lemma cap_own g : In g cap -> g_colour g = c -> gs = [g] /\ cap = [g].
  Proof.
    unfold cap, captured_groups. destruct gs as [|g0 [|g1 l]].
    - simpl; tauto.
    - intros [->|[]]; auto.
    - intros H E. exfalso. unfold opp_groups in H. apply filter_In in H.
      destruct H as [_ H]. rewrite E in H. destruct c; discriminate.
  Qed.

  (** The captures are exactly those of the rules. *)
  Lemma play_go_move : go_move s pos p c pos'.
  Proof.
    pose (pos2 := fun q => if mem_point q (group_points (opp_groups c gs)) then None else pos1 q).
    assert (forall q, on_board s q -> (In q (group_points (opp_groups c gs)) <->
              pos1 q = Some (opponent_of c) /\ ~ has_liberty s pos1 q)) as OPP.
    { intros q Oq. unfold group_points. rewrite in_flat_map. split.
      - intros (g & Hg & Hq). apply filter_In in Hg. destruct Hg as [Hg Hc].
        destruct (gs_member g q Hg Hq) as (_ & E & D).
        destruct (colour_eqb_spec (g_colour g) (opponent_of c)) as [Ec|]; [|discriminate].
        rewrite <- Ec. auto.
      - intros [E D]. destruct (gs_complete q Oq) as (g & Hg & Hq & Ec); auto; [congruence|].
        exists g. split; auto. apply filter_In. split; auto.
        destruct (colour_eqb_spec (g_colour g) (opponent_of c)); congruence. }
    exists pos2. split.
    - intros q Oq. unfold pos2. fold pos1. split.
      + intros D. apply OPP in D; auto. apply mem_point_true in D. rewrite D. auto.
      + intros D. rewrite <- OPP in D by auto. apply mem_point_false in D. rewrite D. auto.
    - (* own stones after the opponent's captures *)
      assert (forall q, on_board s q -> pos2 q = Some c -> ~ has_liberty s pos2 q ->
                pos1 q = Some c /\ ~ has_liberty s pos1 q) as DOWN.
      { intros q Oq E D. assert (pos1 q = Some c) as E1.
        { unfold pos2 in E. destruct (mem_point q _); congruence. }
        split; auto. intro L. apply D.
        eapply has_liberty_mono; [exact Oq|exact E1| | |exact L].
        - intros y Oy Ey. unfold pos2.
          destruct (mem_point_spec y (group_points (opp_groups c gs))) as [M|M]; auto.
          apply OPP in M; auto. destruct M as [M _]. exfalso. apply (opponent_neq c). congruence.
        - intros y Oy Ey. unfold pos2. rewrite Ey.
          destruct (mem_point y (group_points (opp_groups c gs))); auto. }
      destruct (opp_groups c gs) as [|g0 og] eqn:Eog.
      + (* nothing of the opponent's is captured *)
        assert (forall q, on_board s q -> pos2 q = pos1 q) as P2 by (intros q Oq; reflexivity).
        assert (forall q, on_board s q -> (In q (group_points cap) <->
                 pos1 q = Some c /\ ~ has_liberty s pos1 q)) as OWN.
        { intros q Oq. unfold group_points. rewrite in_flat_map. split.
          - intros (g & Hg & Hq). pose proof (cap_incl g Hg) as Hgs.
            destruct (gs_member g q Hgs Hq) as (_ & E & D).
            destruct (groups_split c gs g Hgs) as [C|C].
            + rewrite Eog in C. destruct C.
            + apply filter_In in C. destruct (colour_eqb_spec (g_colour g) c) as [Ec|Ec];
                [|destruct C; discriminate]. rewrite <- Ec. auto.
          - intros [E D]. destruct (gs_complete q Oq) as (g & Hg & Hq & Ec); auto; [congruence|].
            exists g. split; auto. pose proof own_groups_short as Sh.
            pose proof length_split as Ls. rewrite Eog in Ls. simpl in Ls.
            unfold cap, captured_groups.
            destruct gs as [|h [|h' l]]; auto. simpl in *. lia. }
        intros q Oq. rewrite P2 by auto. unfold pos'. split.
        * intros [E D]. assert (In q (group_points cap)) as M.
          { apply OWN; auto. }
          apply mem_point_true in M. rewrite M. reflexivity.
        * intros D. assert (~ In q (group_points cap)) as M.
          { intro C. apply D. apply OWN in C; auto. }
          apply mem_point_false in M. rewrite M. auto.
      + (* some opponent group is captured: the mover's stones all have liberties *)
        assert (In g0 gs /\ g_colour g0 = opponent_of c) as [Hg0 Hc0].
        { assert (In g0 (opp_groups c gs)) as I0 by (rewrite Eog; simpl; auto).
          apply filter_In in I0. destruct I0 as [I0 I1]. split; auto.
          destruct (colour_eqb_spec (g_colour g0) (opponent_of c)); congruence. }
        assert (forall q, on_board s q -> pos2 q = Some c -> has_liberty s pos2 q) as ALIVE.
        { intros q Oq E. destruct (lib_dec s pos2 q Oq) as [L|L]; [congruence|auto|].
          exfalso. destruct (DOWN q Oq E L) as [E1 D1].
          pose proof (own_dead s pos p c Lg Op Ep q Oq E1 D1) as C.
          destruct (gs_nonempty g0 Hg0) as (z & Hz).
          destruct (gs_member g0 z Hg0 Hz) as (Oz & Ez & Dz).
          assert (z <> p) as Nz.
          { intros ->. unfold pos1 in Ez. rewrite pos1_p in Ez.
            apply (opponent_neq c). congruence. }
          destruct (dead_touches s pos p c Lg Op Ep z Oz Nz) as (x & Cx & Ax);
            [unfold pos1 in Ez; congruence|auto|].
          assert (In x (g_points g0)) as Hx by (eapply gs_closed; eauto).
          apply L. exists p, x. split; [|split; [apply adj_sym; auto|split]].
          - assert (forall y, connected s pos1 q y -> connected s pos2 q y) as K.
            { intros y Cy. induction Cy as [|y r Cy IH A Or Er]; [constructor|].
              eapply conn_step; eauto. rewrite E. rewrite E1 in Er. unfold pos2.
              destruct (mem_point_spec r (group_points (g0 :: og))) as [M|M]; auto.
              apply OPP in M; auto. destruct M as [M _].
              exfalso. apply (opponent_neq c). congruence. }
            apply K. exact C.
          - apply (gs_member g0 x Hg0 Hx).
          - unfold pos2. assert (In x (group_points (g0 :: og))) as M.
            { unfold group_points. simpl. apply in_app_iff. auto. }
            apply mem_point_true in M. rewrite M. reflexivity. }
        assert (forall q, on_board s q -> pos' q = pos2 q) as EQ.
        { intros q Oq. unfold pos', pos2. rewrite <- Eog.
          assert (In q (group_points cap) <-> In q (group_points (opp_groups c gs))) as I.
          { unfold cap, captured_groups. destruct gs as [|h [|h' l]] eqn:Egs; try tauto.
            destruct Hg0 as [->|[]].
            unfold opp_groups. simpl. rewrite Hc0.
            replace (colour_eqb (opponent_of c) (opponent_of c)) with true
              by (destruct c; reflexivity). tauto. }
          destruct (mem_point_spec q (group_points cap)), 
                   (mem_point_spec q (group_points (opp_groups c gs))); tauto. }
        intros q Oq. rewrite EQ by auto. split.
        * intros [E D]. destruct D. apply ALIVE; auto.
        * auto.
  Qed.

  Lemma pos1_at_p : pos1 p = Some c.
  Proof. apply pos1_p. Qed.

  Lemma cap_mem q : In q (group_points cap) -> exists g, In g cap /\ In g gs /\ In q (g_points g).
  Proof.
    unfold group_points. rewrite in_flat_map. intros (g & Hg & Hq).
    exists g. repeat split; auto. apply cap_incl; auto.
  Qed.

  Lemma pos'_none q : pos' q = None -> pos1 q <> None -> In q (group_points cap).
  Proof. unfold pos'. destruct (mem_point_spec q (group_points cap)); auto. congruence. Qed.

  Lemma pos'_some q : pos' q <> None -> pos' q = pos1 q /\ ~ In q (group_points cap).
  Proof. unfold pos'. destruct (mem_point_spec q (group_points cap)); auto. congruence. Qed.

  Lemma NoDup_all_eq (l : list point) k :
    NoDup l -> (forall q, In q l -> q = k) -> In k l -> l = [k].
  Proof.
    clear. intros ND H I. destruct l as [|a [|a' l]].
    - destruct I.
    - rewrite (H a); simpl; auto.
    - exfalso. inv ND. apply H2. rewrite (H a), (H a'); simpl; auto.
  Qed.

  Lemma gs_nodup g : In g gs -> NoDup (g_points g).
  Proof.
    intros Hg. destruct Sgs as (S1 & _). destruct (S1 g Hg) as (x & G & _). apply G.
  Qed.

  Lemma simple_ko_groups k :
    simple_ko s pos p c pos' k ->
    exists g sg, opp_groups c gs = [g] /\ g_points g = [k] /\ own_groups c gs = [sg] /\
                 g_points sg = [p] /\ (2 <= List.length gs)%nat.
  Proof.
    intros (Ok_ & Ek & Ek' & Ep' & Ak & Hu & Hn).
    assert (k <> p) as Nkp by (intros ->; congruence).
    assert (pos1 k = Some (opponent_of c)) as Ek1.
    { unfold pos1. rewrite pos1_other; auto. }
    assert (forall q, on_board s q -> adj p q -> pos1 q = Some (opponent_of c)) as NB.
    { intros q Oq Aq. assert (q = k \/ q <> k) as [->|Nq]
        by (destruct (point_eqb_spec q k); auto); auto.
      pose proof (Hn q Oq Aq Nq) as E. rewrite <- E. symmetry.
      apply pos'_some. congruence. }
    assert (forall x, connected s pos1 p x -> x = p) as LONE.
    { intros x C. induction C as [|y r C IH A Or Er]; auto. subst y.
      exfalso. rewrite (NB r Or A) in Er. rewrite pos1_at_p in Er.
      apply (opponent_neq c). congruence. }
    assert (~ has_liberty s pos1 p) as Dp.
    { intros (x & l & C & A & Ol & El). apply LONE in C. subst x.
      rewrite (NB l Ol A) in El. discriminate. }
    destruct (gs_complete p Op) as (sg & Hsg & Hp & Ec); auto.
    { rewrite pos1_at_p; discriminate. }
    rewrite pos1_at_p in Ec. assert (g_colour sg = c) as Ecg by congruence.
    assert (In sg (own_groups c gs)) as Isg.
    { apply filter_In. split; auto. rewrite Ecg. destruct c; reflexivity. }
    assert (own_groups c gs = [sg]) as EO.
    { pose proof own_groups_short as Sh. destruct (own_groups c gs) as [|h [|h' l]];
        [destruct Isg| |simpl in Sh; lia]. destruct Isg as [->|[]]. reflexivity. }
    assert (In k (group_points cap)) as Hk by (apply pos'_none; congruence).
    destruct (cap_mem k Hk) as (g & Hgc & Hg & Hkg).
    destruct (gs_member g k Hg Hkg) as (_ & Egk & _).
    assert (g_colour g = opponent_of c) as Eg by congruence.
    assert (In g (opp_groups c gs)) as Ig.
    { apply filter_In. split; auto. rewrite Eg. destruct c; reflexivity. }
    assert (forall h, In h (opp_groups c gs) -> forall q, In q (g_points h) -> q = k) as ALL.
    { intros h Hh q Hq. apply filter_In in Hh. destruct Hh as [Hh Hhc].
      destruct (colour_eqb_spec (g_colour h) (opponent_of c)) as [Ehc|]; [|discriminate].
      destruct (gs_member h q Hh Hq) as (Oq & Eq & _).
      assert (q = k \/ q <> k) as [->|Nq] by (destruct (point_eqb_spec q k); auto); auto.
      exfalso.
      assert (q <> p) as Nqp.
      { intros ->. rewrite pos1_at_p in Eq. apply (opponent_neq c). congruence. }
      pose proof (Hu q Oq Nq Nqp) as Eu.
      assert (pos' q = None) as E0.
      { unfold pos'. assert (In q (group_points cap)) as M.
        { unfold group_points. apply in_flat_map. exists h. split; auto.
          apply cap_opp; auto. }
        apply mem_point_true in M. rewrite M. reflexivity. }
      unfold pos1 in Eq. rewrite pos1_other in Eq by auto. congruence. }
    assert (opp_groups c gs = [g]) as EOP.
    { assert (ForallOrdPairs (fun g h => forall q, In q (g_points g) -> ~ In q (g_points h))
                             (opp_groups c gs)) as FO.
      { destruct Sgs as (_ & _ & S3). clear - S3. unfold opp_groups.
        induction S3 as [|a l F S3 IH]; simpl; [constructor|].
        destruct (colour_eqb (g_colour a) (opponent_of c)); auto. constructor; auto.
        rewrite Forall_forall in *. intros x Hx. apply filter_In in Hx. apply F; tauto. }
      assert (forall h, In h (opp_groups c gs) -> In k (g_points h)) as HK.
      { intros h Hh. assert (In h gs) as Hh' by (apply filter_In in Hh; tauto).
        destruct (gs_nonempty h Hh') as (q & Hq). rewrite <- (ALL h Hh q Hq). auto. }
      destruct (opp_groups c gs) as [|h [|h' l]].
      - destruct Ig.
      - destruct Ig as [->|[]]; auto.
      - exfalso. inv FO. inv H1. apply (H3 k); apply HK; simpl; auto. }
    exists g, sg. split; [exact EOP|]. split.
    - apply NoDup_all_eq; auto; [apply gs_nodup; auto|].
      intros q Hq. apply (ALL g Ig q Hq).
    - split; [exact EO|]. split.
      + apply NoDup_all_eq; [apply gs_nodup; auto| |auto].
        intros q Hq. apply LONE. destruct Sgs as (S1 & _).
        destruct (S1 sg Hsg) as (x & (X1 & X2 & X3 & X4 & _) & _). simpl in *.
        apply X4 in Hq. apply X4 in Hp.
        eapply connected_ext; [exact Op|exact same1|].
        eapply connected_trans; [|exact Hq]. apply connected_sym; auto.
      + rewrite length_split, EO, EOP. simpl. lia.
  Qed.

  Lemma ko_groups_simple g sg l kp :
    (2 <= List.length gs)%nat ->
    opp_groups c gs = [g] -> g_points g = [kp] -> own_groups c gs = sg :: l ->
    List.length (g_points sg) = 1%nat -> simple_ko s pos p c pos' kp.
  Proof.
    intros L2 EO Eg EW Es.
    assert (In g gs /\ g_colour g = opponent_of c) as [Hg Cg].
    { assert (In g (opp_groups c gs)) as I by (rewrite EO; simpl; auto).
      apply filter_In in I. destruct I as [I1 I2]. split; auto.
      destruct (colour_eqb_spec (g_colour g) (opponent_of c)); congruence. }
    assert (In sg gs /\ g_colour sg = c) as [Hs Cs].
    { assert (In sg (own_groups c gs)) as I by (rewrite EW; simpl; auto).
      apply filter_In in I. destruct I as [I1 I2]. split; auto.
      destruct (colour_eqb_spec (g_colour sg) c); congruence. }
    pose proof (own_has_p sg Hs Cs) as Hp.
    assert (g_points sg = [p]) as Esp.
    { destruct (g_points sg) as [|a [|a' t]]; simpl in *; try lia.
      destruct Hp as [->|[]]. reflexivity. }
    assert (In kp (g_points g)) as Hk by (rewrite Eg; simpl; auto).
    destruct (gs_member g kp Hg Hk) as (Ok_ & E1 & D1).
    destruct (gs_member sg p Hs Hp) as (_ & Ep1 & Dp).
    assert (kp <> p) as Nk.
    { intros ->. rewrite Ep1 in E1. apply (opponent_neq c). congruence. }
    assert (group_points cap = [kp]) as EC.
    { unfold cap, captured_groups. destruct gs as [|h [|h' t]]; simpl in L2; try lia.
      rewrite EO. unfold group_points. simpl. rewrite Eg. reflexivity. }
    assert (forall q, q <> kp -> pos' q = pos1 q) as P'.
    { intros q Nq. unfold pos'. rewrite EC. simpl. unfold mem_point. simpl.
      destruct (point_eqb_spec q kp); [congruence|]. reflexivity. }
    split; [exact Ok_|]. split.
    { rewrite <- (pos1_other pos p c kp) by auto. unfold pos1 in E1. congruence. }
    split.
    { unfold pos'. rewrite EC. unfold mem_point. simpl. rewrite point_eqb_refl. reflexivity. }
    split; [rewrite P' by auto; apply pos1_at_p|]. split.
    { destruct (dead_touches s pos p c Lg Op Ep kp Ok_ Nk) as (x & Cx & Ax);
        [unfold pos1 in E1; congruence|auto|].
      assert (In x (g_points g)) as Hx by (eapply gs_closed; eauto).
      rewrite Eg in Hx. destruct Hx as [->|[]]. apply adj_sym; auto. }
    split.
    { intros q Oq N1 N2. rewrite P' by auto. unfold pos1. apply pos1_other; auto. }
    intros q Oq Aq Nq. rewrite P' by auto.
    destruct (pos1 q) as [d|] eqn:Eq.
    - destruct (colour_eqb_spec d c) as [->|Nd]; [|destruct d, c; simpl; congruence].
      exfalso. assert (In q (g_points sg)) as Hq.
      { eapply gs_closed; eauto. eapply conn_step; [apply conn_refl|exact Aq|exact Oq|].
        rewrite pos1_at_p. auto. }
      rewrite Esp in Hq. destruct Hq as [<-|[]]. apply (adj_irrefl _ Aq).
    - exfalso. apply Dp. exists p, q. repeat split; auto; try apply Oq. constructor.
  Qed.

  Lemma ko_iff :
    (2 <= List.length gs)%nat ->
    exists k, ko_result c gs = Ok k /\ forall kp, k = Some kp <-> simple_ko s pos p c pos' kp.
  Proof.
    intros L2.
    assert (forall k : option point, (forall kp, simple_ko s pos p c pos' kp -> k = Some kp) ->
             (forall kp, k = Some kp -> simple_ko s pos p c pos' kp) ->
             forall kp, k = Some kp <-> simple_ko s pos p c pos' kp) as MK
        by (intros k A1 A2 kp; split; auto).
    unfold ko_result.
    destruct (opp_groups c gs) as [|g [|g' t]] eqn:EO.
    - exists None. split; auto. apply MK; [|congruence]. intros kp H.
      apply simple_ko_groups in H. destruct H as (? & ? & H & _). congruence.
    - destruct (g_points g) as [|kp [|kp' t]] eqn:Eg.
      + exists None. split; auto. apply MK; [|congruence]. intros kp H.
        apply simple_ko_groups in H. destruct H as (? & ? & H & H' & _). congruence.
      + destruct (own_groups c gs) as [|sg l] eqn:EW.
        { exfalso. pose proof length_split as H. rewrite EO, EW in H. simpl in H. lia. }
        destruct (Nat.eqb_spec (List.length (g_points sg)) 1) as [E|E].
        * exists (Some kp). split; auto. apply MK.
          -- intros k H. apply simple_ko_groups in H.
             destruct H as (? & ? & H & H' & _). congruence.
          -- intros k H. inv H. eapply ko_groups_simple; eauto.
        * exists None. split; auto. apply MK; [|congruence]. intros k H.
          apply simple_ko_groups in H. destruct H as (? & ? & H & H' & H2 & H3 & _).
          assert (g_points sg = [p]) as EE by congruence. rewrite EE in E. simpl in E. lia.
      + exists None. split; auto. apply MK; [|congruence]. intros k H.
        apply simple_ko_groups in H. destruct H as (? & ? & H & H' & _). congruence.
    - exists None. split; auto. apply MK; [|congruence]. intros kp H.
      apply simple_ko_groups in H. destruct H as (? & ? & H & _). congruence.
  Qed.

  Lemma single_flag g :
    gs = [g] ->
    (Nat.eqb (List.length (g_points g)) (Z.to_nat (s * s)) = true <->
     forall q, on_board s q -> pos' q = None).
  Proof.
    intros Eg.
    assert (In g gs) as Hg by (rewrite Eg; simpl; auto).
    assert (group_points cap = g_points g) as EC.
    { unfold cap, captured_groups. rewrite Eg. unfold group_points. simpl. apply app_nil_r. }
    assert (2 <= s) as S2 by apply W.
    pose proof (board_points_length s ltac:(lia)) as BL.
    pose proof (gs_nodup g Hg) as ND.
    assert (incl (g_points g) (board_points s)) as I1.
    { intros q Hq. apply In_board_points. apply (gs_member g q Hg Hq). }
    rewrite Nat.eqb_eq. split.
    - intros L q Oq. unfold pos'. rewrite EC.
      assert (In q (g_points g)) as M.
      { apply (NoDup_length_incl ND (l' := board_points s)); auto; [lia|].
        apply In_board_points; auto. }
      apply mem_point_true in M. rewrite M. reflexivity.
    - intros H.
      assert (forall q, on_board s q -> In q (g_points g)) as ALL.
      { intros q Oq. apply (grid_closed s (fun q => In q (g_points g)) p q); auto.
        - intros x y Ox Hx A Oy. rewrite <- EC. apply pos'_none; auto.
          intro N. destruct (gs_member g x Hg Hx) as (_ & _ & D). apply D.
          exists x, y. repeat split; auto; try apply Oy. constructor.
        - rewrite <- EC. apply pos'_none; auto. rewrite pos1_at_p. discriminate. }
      assert (List.length (board_points s) <= List.length (g_points g))%nat as L1.
      { apply NoDup_incl_length; [apply NoDup_board_points|].
        intros q Hq. apply ALL, In_board_points; auto. }
      pose proof (NoDup_incl_length ND I1). lia.
  Qed.

  Lemma p_stays : ~ (exists g, gs = [g]) -> pos' p = Some c.
  Proof.
    intros N. unfold pos'. destruct (mem_point_spec p (group_points cap)) as [M|M];
      [|apply pos1_at_p].
    exfalso. destruct (cap_mem p M) as (g & Hc & Hg & Hp).
    destruct (gs_member g p Hg Hp) as (_ & E & _). rewrite pos1_at_p in E.
    apply N. exists g. apply cap_own; auto. congruence.
  Qed.

  Lemma play_result :
    exists b' ko,
      play pick b (fst p) (snd p) c = (b', Ok ko) /\ side b' = s /\ gwf s (grid b') /\
      (forall q, on_board s q -> cell_at (grid b') q = pos' q) /\
      (empty_flag b' = true <-> forall q, on_board s q -> pos' q = None) /\
      (forall kp, ko = Some kp <-> simple_ko s pos p c pos' kp).
  Proof.
    assert (get b (fst p) (snd p) = Ok None) as G.
    { rewrite get_spec by auto. destruct p as [r cc] eqn:Ep0. simpl in *.
      apply on_boardb_true in Op. fold s. rewrite Op. fold pos. rewrite Ep. reflexivity. }
    unfold play. rewrite G. cbv zeta iota.
    replace (fst p, snd p) with p by (destruct p; reflexivity).
    fold s. fold b1. rewrite Fgs.
    assert (forall q, on_board s q -> ~ (exists g, gs = [g]) ->
             (false = true <-> (forall q, on_board s q -> pos' q = None))) as FF.
    { intros q Oq N. split; [congruence|]. intros H.
      pose proof (p_stays N) as K. rewrite (H p Op) in K. discriminate. }
    assert ((List.length gs <= 1)%nat -> forall kp, None = Some kp <-> simple_ko s pos p c pos' kp)
      as NK.
    { intros L kp. split; [congruence|]. intros H. apply simple_ko_groups in H.
      destruct H as (? & ? & _ & _ & _ & _ & H). lia. }
    pose proof cap_cell as CC. pose proof cap_gwf as CG.
    pose proof single_flag as SF. pose proof ko_iff as KI.
    unfold cap, captured_groups in CC, CG. unfold ko_result in KI.
    destruct gs as [|g [|g' t]] eqn:Egs.
    - exists b1, None. split; [reflexivity|]. split; [reflexivity|]. split; [exact CG|].
      split; [exact CC|]. split; [|apply NK; simpl; lia].
      apply FF with p; auto. intros (x & X). discriminate.
    - eexists _, None. split; [reflexivity|]. split; [reflexivity|]. split; [exact CG|].
      split; [exact CC|]. split; [|apply NK; simpl; lia].
      apply SF; reflexivity.
    - unfold opp_groups, own_groups in *.
      destruct KI as (k & EK & KI); [simpl; lia|].
      fold opp_groups. rewrite EK.
      eexists _, k. split; [reflexivity|]. split; [reflexivity|]. split; [exact CG|].
      split; [exact CC|]. split; [|exact KI].
      apply FF with p; auto. intros (x & X). discriminate.
  Qed.
End Play.
