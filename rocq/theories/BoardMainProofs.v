(** The board theorems, assembled. *)
From Coq Require Import FinFun.
From Verif Require Import Base BoardModel BoardSpec BoardProofs BoardPlayProofs.

(** * Extensionality of the specification *)

Lemma same_on_sym s a b : same_on s a b -> same_on s b a.
Proof. intros H p Op. symmetry. apply H; auto. Qed.

Lemma same_on_trans s a b c : same_on s a b -> same_on s b c -> same_on s a c.
Proof. intros H1 H2 p Op. rewrite H1, H2; auto. Qed.

Lemma has_liberty_iff s pos pos' p : on_board s p -> same_on s pos pos' ->
  (has_liberty s pos p <-> has_liberty s pos' p).
Proof.
  intros O H. split; apply has_liberty_ext; auto. apply same_on_sym; auto.
Qed.

Lemma legal_ext s pos pos' : same_on s pos pos' -> legal s pos -> legal s pos'.
Proof.
  intros H L p Op N. rewrite <- (has_liberty_iff s pos pos'); auto.
  apply L; auto. rewrite H; auto.
Qed.

Lemma clears_ext s c a a' b b' :
  same_on s a a' -> same_on s b b' -> clears s a c b -> clears s a' c b'.
Proof.
  intros H1 H2 C p Op. destruct (C p Op) as [C1 C2].
  rewrite <- (has_liberty_iff s a a') by auto. rewrite <- (H1 p Op), <- (H2 p Op). auto.
Qed.

Lemma place_ext s a a' p v : same_on s a a' -> same_on s (place a p v) (place a' p v).
Proof. intros H q Oq. unfold place. destruct (point_eqb p q); auto. Qed.

Lemma go_move_ext s a a' p c b b' :
  same_on s a a' -> same_on s b b' -> go_move s a p c b -> go_move s a' p c b'.
Proof.
  intros H1 H2 (x & X1 & X2). exists x. split.
  - eapply clears_ext; [apply place_ext; exact H1| |exact X1]. intros q Oq; reflexivity.
  - eapply clears_ext; [|exact H2|exact X2]. intros q Oq; reflexivity.
Qed.

Lemma simple_ko_ext s a a' p c b b' k :
  on_board s p ->
  same_on s a a' -> same_on s b b' -> simple_ko s a p c b k -> simple_ko s a' p c b' k.
Proof.
  intros Op H1 H2 (K1 & K2 & K3 & K4 & K5 & K6 & K7). unfold simple_ko.
  repeat split; try apply K1; auto.
  - rewrite <- H1; auto.
  - rewrite <- H2; auto.
  - rewrite <- H2; auto.
  - intros q Oq N1 N2. rewrite <- H1, <- H2; auto.
  - intros q Oq A N. rewrite <- H2; auto.
Qed.

Lemma view_same b : wf b -> same_on (side b) (cell_at (grid b)) (view b).
Proof. intros W q Oq. symmetry. apply view_on; auto. Qed.

(** * The invariant *)

Definition good (b : board) : Prop :=
  wf b /\ legal (side b) (view b) /\
  (empty_flag b = true <-> forall q, on_board (side b) q -> view b q = None).

Lemma nth_repeat_default {A} (x : A) n i d : nth i (repeat x n) d = if (i <? n)%nat then x else d.
Proof.
  revert i; induction n as [|n IH]; intros [|i]; simpl; auto.
  rewrite IH. reflexivity.
Qed.

Lemma new_board_good s b : new_board s = Ok b ->
  good b /\ side b = s /\ (forall q, view b q = None).
Proof.
  unfold new_board. destruct (Z.ltb_spec s 2); [discriminate|]. intros E. inv E.
  set (b := mkBoard _ _ _).
  assert (wf b) as W.
  { split; [simpl; lia|]. split.
    - simpl. rewrite repeat_length. lia.
    - rewrite Forall_forall. simpl. intros x Hx. apply repeat_spec in Hx. subst x.
      rewrite repeat_length. lia. }
  assert (forall q, view b q = None) as V.
  { intros q. destruct (on_boardb_spec (side b) q) as [O|O]; [|apply view_off; auto].
    rewrite view_on by auto. unfold cell_at. simpl. rewrite nth_repeat_default.
    destruct (Z.to_nat (fst q) <? Z.to_nat s)%nat; [|destruct (Z.to_nat (snd q)); reflexivity].
    rewrite nth_repeat_default.
    destruct (Z.to_nat (snd q) <? Z.to_nat s)%nat; reflexivity. }
  split; [|split; auto]. split; auto. split.
  - intros q Oq N. rewrite V in N. congruence.
  - split; auto.
Qed.

(** * play *)

Theorem play_correct pick b p c :
  good b -> on_board (side b) p -> view b p = None ->
  exists b' ko,
    play pick b (fst p) (snd p) c = (b', Ok ko) /\ good b' /\ side b' = side b /\
    go_move (side b) (view b) p c (view b') /\
    (forall k, ko = Some k <-> simple_ko (side b) (view b) p c (view b') k).
Proof.
  intros (W & Lg & _) Op Ep. pose proof (view_same b W) as VS.
  rewrite <- (VS p Op) in Ep.
  assert (legal (side b) (cell_at (grid b))) as Lg'
    by (eapply legal_ext; [apply same_on_sym; exact VS|exact Lg]).
  set (b1 := mkBoard (side b) (set_cell (grid b) p (Some c)) false).
  destruct (find_surrounded_ok pick b1) as (gs & Fg & Sg).
  destruct (play_result pick b p c W Lg' Op Ep gs Fg Sg)
    as (b' & ko & EP & ES & GW & CE & FL & KO).
  pose proof (play_go_move pick b p c W Lg' Op Ep gs Fg Sg) as GM.
  assert (wf b') as W' by (split; rewrite ES; auto; apply W).
  set (P' := fun q => if mem_point q (group_points (captured_groups c gs)) then None
                      else place (cell_at (grid b)) p (Some c) q) in *.
  assert (same_on (side b) P' (view b')) as VS'.
  { intros q Oq. rewrite view_on by (auto; rewrite ES; auto). symmetry. apply CE; auto. }
  exists b', ko. split; [exact EP|].
  assert (go_move (side b) (view b) p c (view b')) as GM'
    by (eapply go_move_ext; [exact VS|exact VS'|exact GM]).
  split; [|split; [exact ES|split; [exact GM'|]]].
  - split; auto. rewrite ES. split.
    + eapply go_move_legal; [exact Lg|exact Op| |exact GM'].
      rewrite <- (VS p Op). auto.
    + rewrite FL. split; intros H q Oq.
      * rewrite <- (VS' q Oq). apply H; auto.
      * change (P' q = None). rewrite (VS' q Oq). apply H; auto.
  - intros k. rewrite KO. split; apply simple_ko_ext; auto; apply same_on_sym; auto.
Qed.

Lemma play_errors pick b r col c :
  wf b ->
  (~ on_board (side b) (r, col) -> play pick b r col c = (b, Err IndexError)) /\
  (on_board (side b) (r, col) -> view b (r, col) <> None ->
     play pick b r col c = (b, Err ValueError)).
Proof.
  intros W. destruct (play_unfold pick b r col c W) as [A B]. split; auto.
  intros O N. apply B; auto. rewrite <- view_on; auto.
Qed.

Lemma play_good pick b r col c :
  good b -> good (fst (play pick b r col c)) /\ side (fst (play pick b r col c)) = side b.
Proof.
  intros G. pose proof G as (W & _).
  destruct (play_errors pick b r col c W) as [E1 E2].
  destruct (on_boardb_spec (side b) (r, col)) as [O|O].
  - destruct (view b (r, col)) as [d|] eqn:V.
    + rewrite E2; auto. congruence.
    + destruct (play_correct pick b (r, col) c G O V) as (b' & ko & EP & G' & S' & _).
      simpl in EP. rewrite EP. auto.
  - rewrite E1; auto.
Qed.

(** * apply_setup *)

Lemma fold_set_cell s v pts g :
  gwf s g -> (forall p, In p pts -> on_board s p) ->
  gwf s (fold_left (fun g p => set_cell g p v) pts g) /\
  forall q, on_board s q ->
    cell_at (fold_left (fun g p => set_cell g p v) pts g) q =
    if mem_point q pts then v else cell_at g q.
Proof.
  revert g. induction pts as [|p pts IH]; intros g W O; cbn [fold_left].
  - auto.
  - destruct (IH (set_cell g p v)) as [W' E]; auto using gwf_set_cell.
    { intros; apply O; simpl; auto. }
    split; auto. intros q Oq. rewrite E by auto.
    unfold mem_point at 2. cbn [existsb]. fold (mem_point q pts).
    rewrite (cell_at_set_cell s) by (auto; apply O; simpl; auto).
    destruct (point_eqb_spec q p) as [->|N]; simpl.
    + rewrite point_eqb_refl. destruct (mem_point p pts); auto.
    + destruct (point_eqb_spec p q); [congruence|]. reflexivity.
Qed.

Lemma clears_all_legal s pos pos' : clears_all s pos pos' -> legal s pos'.
Proof.
  intros C q Oq N.
  assert (forall y, on_board s y -> pos' y <> None -> pos' y = pos y /\ has_liberty s pos y) as K.
  { intros y Oy Ny. destruct (C y Oy) as [C1 C2].
    assert (pos' y = pos y) as E by (apply C2; intro D; auto).
    split; auto. destruct (lib_dec s pos y Oy) as [L|L]; [congruence|auto|].
    exfalso. apply Ny, C1. split; auto. congruence. }
  assert (forall y, on_board s y -> (pos y = None \/ has_liberty s pos y) -> pos' y = pos y) as K'.
  { intros y Oy [E|L]; apply (C y Oy); intros [A B]; auto. }
  destruct (K q Oq N) as [E L]. pose proof L as (x & l & Cn & A & Ol & El).
  assert (forall y, connected s pos q y -> connected s pos' q y) as KC.
  { intros y Cy. induction Cy as [|y r Cy IH Ay Or Er]; [constructor|].
    eapply conn_step; eauto. rewrite E.
    rewrite K'; auto. right. apply has_liberty_connected with q; auto.
    apply connected_sym; auto. eapply conn_step; eauto. }
  exists x, l. split; auto. split; auto. split; auto. rewrite K'; auto.
Qed.

Lemma all_on_board_spec s l : all_on_board s l = true <-> forall p, In p l -> on_board s p.
Proof.
  unfold all_on_board. rewrite forallb_forall. split; intros H p Hp.
  - apply on_boardb_true; auto.
  - apply on_boardb_true; auto.
Qed.

Theorem setup_correct pick b bl wh em :
  good b ->
  (forall p, In p (bl ++ wh ++ em) -> on_board (side b) p) ->
  exists b' legal_flag,
    apply_setup pick b bl wh em = (b', Ok legal_flag) /\ good b' /\ side b' = side b /\
    clears_all (side b) (setup_position (view b) bl wh em) (view b') /\
    (legal_flag = true <-> legal (side b) (setup_position (view b) bl wh em)).
Proof.
  intros (W & Lg & _) HO. unfold apply_setup.
  assert (all_on_board (side b) (bl ++ wh ++ em) = true) as -> by (apply all_on_board_spec; auto).
  cbn [negb].
  assert (gwf (side b) (grid b)) as GW by apply W.
  destruct (fold_set_cell (side b) (Some Black) bl (grid b)) as [W1 E1]; auto.
  { intros p Hp. apply HO. rewrite in_app_iff; auto. }
  set (g1 := fold_left (fun g p => set_cell g p (Some Black)) bl (grid b)) in *.
  destruct (fold_set_cell (side b) (Some White) wh g1) as [W2 E2]; auto.
  { intros p Hp. apply HO. rewrite !in_app_iff; auto. }
  set (g2 := fold_left (fun g p => set_cell g p (Some White)) wh g1) in *.
  destruct (fold_set_cell (side b) None em g2) as [W3 E3]; auto.
  { intros p Hp. apply HO. rewrite !in_app_iff; auto. }
  set (g3 := fold_left (fun g p => set_cell g p None) em g2) in *.
  set (sp := setup_position (view b) bl wh em).
  set (b3 := mkBoard (side b) g3 (empty_flag b)).
  assert (same_on (side b) (cell_at g3) sp) as S3.
  { intros q Oq. rewrite E3, E2, E1 by auto. unfold sp, setup_position.
    rewrite <- (view_same b W q Oq). reflexivity. }
  destruct (find_surrounded_ok pick b3) as (gs & Fg & (G1 & G2 & G3)).
  rewrite Fg. simpl in G1, G2.
  set (g4 := clear_groups g3 gs).
  assert (forall q, In q (group_points gs) -> on_board (side b) q /\ cell_at g3 q <> None /\
                    ~ has_liberty (side b) (cell_at g3) q) as GP.
  { intros q. unfold group_points. rewrite in_flat_map. intros (g & Hg & Hq).
    destruct (G1 g Hg) as (x & (X1 & X2 & X3 & X4 & _) & D). simpl in *.
    apply X4 in Hq. split; [eapply connected_on; eauto|]. split.
    - rewrite (connected_same _ _ _ _ Hq). congruence.
    - intro L. apply D. eapply has_liberty_connected; eauto. }
  assert (forall q, on_board (side b) q ->
            cell_at g4 q = if mem_point q (group_points gs) then None else cell_at g3 q) as E4.
  { intros q Oq. unfold g4. rewrite clear_groups_points.
    apply (clear_points_spec (side b)); auto. intros p Hp. apply GP; auto. }
  assert (gwf (side b) g4) as W4.
  { unfold g4. rewrite clear_groups_points.
    eapply (clear_points_spec (side b) _ _ (0, 0)); auto.
    - intros p Hp. apply GP; auto.
    - destruct W. unfold on_board; simpl; lia. }
  eexists _, _. split; [reflexivity|].
  set (fl := forallb _ (board_points (side b))).
  set (b' := mkBoard (side b) g4 fl).
  assert (wf b') as W' by (split; [apply W|exact W4]).
  assert (clears_all (side b) sp (view b')) as CA.
  { intros q Oq. rewrite (view_on b' q W' Oq). simpl. rewrite E4 by auto.
    assert (In q (group_points gs) <-> sp q <> None /\ ~ has_liberty (side b) sp q) as I.
    { rewrite <- (S3 q Oq), <- (has_liberty_iff (side b) (cell_at g3) sp q) by auto.
      split.
      - intros H. apply GP in H. tauto.
      - intros [N D]. destruct (G2 q Oq N D) as (g & Hg & Hq).
        unfold group_points. apply in_flat_map. eauto. }
    split.
    - intros D. apply I in D. apply mem_point_true in D. rewrite D. reflexivity.
    - intros D. rewrite <- I in D. apply mem_point_false in D. rewrite D. apply S3; auto. }
  split; [|split; [reflexivity|split; [exact CA|]]].
  - split; auto. split; [eapply clears_all_legal; exact CA|]. simpl. unfold fl.
    rewrite forallb_forall. split; intros H q Oq.
    + rewrite view_on by auto. simpl.
      apply In_board_points in Oq. specialize (H q Oq). destruct (cell_at g4 q); auto; discriminate.
    + apply In_board_points in Oq. specialize (H q Oq). rewrite view_on in H by auto.
      simpl in H. rewrite H. reflexivity.
  - destruct gs as [|g t].
    + split; auto. intros _ q Oq N.
      destruct (lib_dec (side b) sp q Oq N) as [L|L]; auto. exfalso.
      destruct (G2 q Oq) as (g & [] & _); [rewrite S3; auto|].
      rewrite (has_liberty_iff (side b) (cell_at g3) sp q) by auto. auto.
    + split; [discriminate|]. intros L. exfalso.
      destruct (G1 g) as (x & (X1 & X2 & _) & D); simpl; auto. simpl in *.
      apply D. rewrite (has_liberty_iff (side b) (cell_at g3) sp x) by auto.
      apply L; auto. rewrite <- S3 by auto. congruence.
Qed.

Lemma setup_errors pick b bl wh em :
  ~ (forall p, In p (bl ++ wh ++ em) -> on_board (side b) p) ->
  apply_setup pick b bl wh em = (b, Err IndexError).
Proof.
  intros N. unfold apply_setup.
  destruct (all_on_board (side b) (bl ++ wh ++ em)) eqn:E; [|reflexivity].
  exfalso. apply N. apply all_on_board_spec; auto.
Qed.

Lemma setup_good pick b bl wh em :
  good b -> good (fst (apply_setup pick b bl wh em)) /\
            side (fst (apply_setup pick b bl wh em)) = side b.
Proof.
  intros G. destruct (all_on_board (side b) (bl ++ wh ++ em)) eqn:E.
  - destruct (setup_correct pick b bl wh em G) as (b' & f & EP & G' & S' & _).
    { apply all_on_board_spec; auto. }
    rewrite EP. auto.
  - rewrite setup_errors; auto. intro H. apply all_on_board_spec in H. congruence.
Qed.

Lemma reachable_good s b : reachable s b -> good b /\ side b = s.
Proof.
  induction 1 as [b N|pick b o R [G S]].
  - destruct (new_board_good s b N) as (G & S & _). auto.
  - destruct o as [r c col|bl wh em]; cbn [apply_op].
    + destruct (play_good pick b r c col G) as [G' S']. split; auto. congruence.
    + destruct (setup_good pick b bl wh em G) as [G' S']. split; auto. congruence.
Qed.

(** * Boards are determined by what they show *)

Lemma list_ext {A} (d : A) (l l' : list A) :
  List.length l = List.length l' ->
  (forall i, (i < List.length l)%nat -> nth i l d = nth i l' d) -> l = l'.
Proof.
  revert l'; induction l as [|a l IH]; intros [|a' l'] L H; simpl in *; try lia; auto.
  f_equal.
  - apply (H 0%nat). lia.
  - apply IH; [lia|]. intros i Hi. apply (H (S i)). lia.
Qed.

Lemma grid_ext s g g' :
  gwf s g -> gwf s g' -> (forall q, on_board s q -> cell_at g q = cell_at g' q) -> g = g'.
Proof.
  intros W W' H. pose proof W as [L F]. pose proof W' as [L' F'].
  apply (list_ext []); [lia|]. intros i Hi.
  pose proof (gwf_nth s g (Z.of_nat i) W ltac:(lia)) as Li.
  pose proof (gwf_nth s g' (Z.of_nat i) W' ltac:(lia)) as Li'.
  rewrite Nat2Z.id in *.
  apply (list_ext (None : cell)); [lia|]. intros j Hj.
  assert (on_board s (Z.of_nat i, Z.of_nat j)) as O by (unfold on_board; simpl; lia).
  specialize (H _ O). unfold cell_at in H. simpl in H. rewrite !Nat2Z.id in H. exact H.
Qed.

Lemma good_ext b b' :
  good b -> good b' -> side b = side b' -> same_on (side b) (view b) (view b') -> b = b'.
Proof.
  intros (W & _ & F) (W' & _ & F') S H.
  assert (grid b = grid b') as EG.
  { apply (grid_ext (side b)); [apply W|rewrite S; apply W'|]. intros q Oq.
    rewrite <- view_on by auto. rewrite <- view_on by (auto; congruence). apply H; auto. }
  assert (empty_flag b = empty_flag b') as EF.
  { apply eq_true_iff_eq. rewrite F, F', <- S. split; intros K q Oq.
    - rewrite <- H; auto.
    - rewrite H; auto. }
  destruct b, b'; simpl in *; congruence.
Qed.

(** The pop order of Python's sets does not matter. *)
Theorem play_pick pick pick' b r col c :
  good b -> play pick b r col c = play pick' b r col c.
Proof.
  intros G. pose proof G as (W & _).
  destruct (on_boardb_spec (side b) (r, col)) as [O|O].
  - destruct (view b (r, col)) as [d|] eqn:V.
    + rewrite !(proj2 (play_errors _ b r col c W)); auto; congruence.
    + destruct (play_correct pick b (r, col) c G O V) as (b1 & k1 & E1 & G1 & S1 & M1 & K1).
      destruct (play_correct pick' b (r, col) c G O V) as (b2 & k2 & E2 & G2 & S2 & M2 & K2).
      simpl in E1, E2. rewrite E1, E2.
      pose proof (go_move_det _ _ _ _ _ _ M1 M2) as D.
      assert (b1 = b2) as <-.
      { apply good_ext; auto; [congruence|]. rewrite S1. exact D. }
      f_equal. f_equal. destruct k1 as [x|], k2 as [y|]; auto.
      * symmetry. apply K2. apply K1. reflexivity.
      * symmetry. apply K2. apply K1. reflexivity.
      * apply K1. apply K2. reflexivity.
  - rewrite !(proj1 (play_errors _ b r col c W)); auto.
Qed.

(** * Retaking a ko *)

Theorem ko_retake pick b p c b' k :
  good b -> on_board (side b) p -> view b p = None ->
  play pick b (fst p) (snd p) c = (b', Ok (Some k)) ->
  view b' k = None /\
  play pick b' (fst k) (snd k) (opponent_of c) = (b, Ok (Some p)).
Proof.
  intros G Op Ep EP.
  destruct (play_correct pick b p c G Op Ep) as (b1 & ko & E & G' & S' & M & K).
  rewrite EP in E. inv E. destruct (proj1 (K k) eq_refl) as (K1 & K2 & K3 & K4 & K5 & K6 & K7).
  split; auto.
  assert (on_board (side b1) k) as Ok1 by (rewrite S'; auto).
  destruct (play_correct pick b1 k (opponent_of c) G' Ok1 K3)
    as (b2 & ko2 & E2 & G2 & S2 & M2 & KK).
  rewrite S' in *.
  assert (k <> p) as Nkp by (intros ->; congruence).
  assert (same_on (side b) (place (view b1) k (Some (opponent_of c)))
                           (place (view b) p (Some c))) as SP.
  { intros q Oq. unfold place. destruct (point_eqb_spec k q) as [<-|N1].
    - destruct (point_eqb_spec p k); congruence.
    - destruct (point_eqb_spec p q) as [<-|N2]; auto. }
  assert (legal (side b) (view b)) as Lg by apply G.
  set (P1 := place (view b) p (Some c)) in *.
  assert (forall q, on_board (side b) q -> adj p q -> P1 q = Some (opponent_of c)) as NB.
  { intros q Oq A. assert (q <> p) as N by (intros ->; apply (adj_irrefl _ A)).
    assert (q = k \/ q <> k) as [->|Nk] by (destruct (point_eqb_spec q k); auto).
    - unfold P1. rewrite pos1_other; auto.
    - rewrite <- (K7 q Oq A Nk). unfold P1. rewrite pos1_other by auto.
      symmetry. apply K6; auto. }
  assert (forall x, connected (side b) P1 p x -> x = p) as LONE.
  { intros x C. induction C as [|y r C IH A Or Er]; auto. subst y.
    exfalso. rewrite (NB r Or A) in Er. unfold P1 in Er. rewrite pos1_p in Er.
    apply (opponent_neq c). congruence. }
  assert (~ has_liberty (side b) P1 p) as Dp.
  { intros (x & l & C & A & Ol & El). apply LONE in C. subst x.
    rewrite (NB l Ol A) in El. discriminate. }
  assert (go_move (side b) (view b1) k (opponent_of c) (view b)) as M3.
  { exists (view b). split.
    - rewrite opponent_involutive.
      eapply clears_ext; [apply same_on_sym; exact SP| |].
      { intros q Oq; reflexivity. }
      intros q Oq. split.
      + intros [Eq Dq].
        pose proof (own_dead (side b) (view b) p c Lg Op Ep q Oq Eq Dq) as C.
        apply connected_sym in C; auto. apply LONE in C. subst q. exact Ep.
      + intros D. assert (q = p \/ q <> p) as [->|N]
          by (destruct (point_eqb_spec q p); auto).
        * exfalso. apply D. split; auto. unfold P1. apply pos1_p.
        * unfold P1. rewrite pos1_other; auto.
    - intros q Oq. split; auto. intros [Eq Dq]. exfalso. apply Dq. apply Lg; auto. congruence. }
  assert (b2 = b) as ->.
  { apply good_ext; auto. rewrite S2. eapply go_move_det; eauto. }
  rewrite E2. f_equal. f_equal. apply KK.
  unfold simple_ko. rewrite opponent_involutive.
  split; [exact Op|]. split; [exact K4|]. split; [exact Ep|]. split; [exact K2|].
  split; [apply adj_sym; exact K5|]. split.
  - intros q Oq N1 N2. symmetry. apply K6; auto.
  - (* the captured stone was alone: its neighbours were all of colour c but p *)
    intros q Oq A N.
    destruct M as (m2 & M1' & M2').
    assert (~ has_liberty (side b) P1 k) as Dk.
    { intro L. assert (m2 k = P1 k) as Em.
      { apply (clears_kept _ _ _ _ _ M1' K1). auto. }
      assert (P1 k = Some (opponent_of c)) as Ek by (unfold P1; rewrite pos1_other; auto).
      assert (view b1 k = m2 k) as Eb.
      { apply (clears_kept _ _ _ _ _ M2' K1). intros X.
        rewrite Em, Ek in X. exfalso. apply (opponent_neq c). congruence. }
      congruence. }
    assert (P1 k = Some (opponent_of c)) as Ek by (unfold P1; rewrite pos1_other; auto).
    assert (P1 q = view b q) as Eq by (unfold P1; rewrite pos1_other; auto).
    assert (q <> k) as Nqk by (intros ->; apply (adj_irrefl _ A)).
    destruct (view b q) as [d|] eqn:Vq.
    + destruct (colour_eqb_spec d c) as [->|Nd]; auto.
      exfalso. assert (d = opponent_of c) as -> by (destruct d, c; simpl; congruence).
      (* q would be dead together with k *)
      assert (connected (side b) P1 k q) as C.
      { eapply conn_step; [apply conn_refl|exact A|exact Oq|congruence]. }
      assert (~ has_liberty (side b) P1 q) as Dq.
      { intro L. apply Dk. eapply has_liberty_connected; eauto. }
      assert (m2 q = None) as Em by (apply (M1' q Oq); split; auto).
      assert (view b1 q = None) as Eb.
      { rewrite (clears_kept _ _ _ _ _ M2' Oq); auto. congruence. }
      rewrite (K6 q Oq Nqk N) in Eb. congruence.
    + exfalso. apply Dk. exists k, q. split; [constructor|]. auto.
Qed.

(** * area_score *)

Lemma make_empty_region_ok pick b p :
  on_board (side b) p -> cell_at (grid b) p = None ->
  exists pts cols, make_empty_region pick b p = Ok (pts, cols) /\ NoDup pts /\
    (forall q, In q pts <-> connected (side b) (cell_at (grid b)) p q) /\
    (forall c, existsb (colour_eqb c) cols = true <->
       exists q r, connected (side b) (cell_at (grid b)) p q /\ adj q r /\
                   on_board (side b) r /\ cell_at (grid b) r = Some c).
Proof.
  intros O E. unfold make_empty_region.
  destruct (flood_start pick b None
    (fun nc acc => match nc with None => acc | Some c => add_colour c acc end) p O E
    ([] : list colour)) as (pts & seen & -> & ND & H & Sn).
  eexists _, _. split; [reflexivity|]. split; [exact ND|]. split; [exact H|].
  assert (forall (l : list cell) (a : list colour) c,
    In c (fold_left (fun a (x : cell) => match x with None => a | Some c => add_colour c a end) l a)
    <-> In c a \/ In (Some c) l) as FL.
  { clear. induction l as [|[x|] l IH]; intros a c; simpl.
    - tauto.
    - rewrite IH. unfold add_colour.
      destruct (existsb (colour_eqb x) a) eqn:Ex.
      + apply existsb_exists in Ex. destruct Ex as (y & Hy & Ey).
        destruct (colour_eqb_spec x y); [subst y|discriminate].
        intuition congruence.
      + rewrite in_app_iff. simpl. intuition congruence.
    - rewrite IH. intuition congruence. }
  intros c. rewrite existsb_exists. split.
  - intros (y & Hy & Ey). destruct (colour_eqb_spec c y); [subst y|discriminate].
    apply FL in Hy. destruct Hy as [[]|Hy]. apply Sn in Hy.
    destruct Hy as (q & r & Hq & A & Or & Er & _). exists q, r.
    rewrite H in Hq. auto.
  - intros (q & r & C & A & Or & Er). exists c. split; [|destruct c; reflexivity].
    apply FL. right. apply Sn. exists q, r. rewrite H. repeat split; auto; try apply Or; congruence.
Qed.

Lemma area_loop_ok pick b : forall rest done handled LB LW,
  let s := side b in let pos := cell_at (grid b) in
  NoDup (done ++ rest) ->
  (forall p, on_board s p <-> In p (done ++ rest)) ->
  (forall p, In p handled <-> exists q, In q done /\ pos q = None /\ connected s pos q p) ->
  NoDup LB -> NoDup LW ->
  (forall p, In p LB <-> (In p done /\ pos p = Some Black) \/
                         (In p handled /\ counts_for s pos Black p)) ->
  (forall p, In p LW <-> (In p done /\ pos p = Some White) \/
                         (In p handled /\ counts_for s pos White p)) ->
  exists sc, area_loop pick b rest handled (Z.of_nat (List.length LB)) (Z.of_nat (List.length LW))
             = Ok sc /\ area_score_spec s pos sc.
Proof.
  induction rest as [|p rest IH]; intros done handled LB LW s pos NDd Hd Hh NB NW HB HW;
    cbn [area_loop].
  - eexists. split; [reflexivity|]. rewrite app_nil_r in *.
    assert (forall c L, (forall p, In p L <-> (In p done /\ pos p = Some c) \/
                         (In p handled /\ counts_for s pos c p)) ->
             forall p, In p L <-> on_board s p /\ counts_for s pos c p) as K.
    { intros c L HL p. rewrite HL, Hd, Hh. split.
      - intros [[Hp E]|[(q & Hq & Eq & C) Cf]].
        + split; auto. left; auto.
        + split; auto. apply Hd. eapply connected_on; eauto. apply Hd; auto.
      - intros [Hp Cf]. pose proof Cf as [E|[E _]]; [left; auto|].
        right. split; auto. exists p. repeat split; auto. constructor. }
    exists LB, LW. split; [|split; [|reflexivity]]; split; auto; apply K; auto.
  - assert (on_board s p) as Op by (apply Hd; rewrite in_app_iff; simpl; auto).
    assert (NoDup ((done ++ [p]) ++ rest)) as NDd' by (rewrite <- app_assoc; exact NDd).
    assert (forall q, on_board s q <-> In q ((done ++ [p]) ++ rest)) as Hd'
      by (intros q; rewrite <- app_assoc; apply Hd).
    assert (~ In p done) as Np.
    { apply NoDup_remove_2 in NDd. intro. apply NDd. rewrite in_app_iff; auto. }
    fold pos. destruct (pos p) as [d|] eqn:E.
    + assert (forall q, In q handled <-> exists q0, In q0 (done ++ [p]) /\ pos q0 = None /\
                connected s pos q0 q) as Hh'.
      { intros q. rewrite Hh. split; intros (x & Hx & Ex & C).
        - exists x. rewrite in_app_iff. auto.
        - rewrite in_app_iff in Hx. destruct Hx as [Hx|[<-|[]]]; [eauto|congruence]. }
      assert (~ In p handled) as Nh.
      { intro C. apply Hh in C. destruct C as (x & _ & Ex & C).
        rewrite (connected_same _ _ _ _ C) in E. congruence. }
      assert (forall c L, c <> d -> (forall p, In p L <-> (In p done /\ pos p = Some c) \/
                         (In p handled /\ counts_for s pos c p)) ->
               forall q, In q L <-> (In q (done ++ [p]) /\ pos q = Some c) \/
                         (In q handled /\ counts_for s pos c q)) as OTHER.
      { intros c L Nc HL q. rewrite HL, in_app_iff. simpl.
        assert (p = q -> pos q <> Some c) by (intros <-; congruence). tauto. }
      assert (forall L, NoDup L -> (forall p, In p L <-> (In p done /\ pos p = Some d) \/
                         (In p handled /\ counts_for s pos d p)) ->
               NoDup (p :: L) /\ forall q, In q (p :: L) <->
                         (In q (done ++ [p]) /\ pos q = Some d) \/
                         (In q handled /\ counts_for s pos d q)) as SAME.
      { intros L NL HL. split.
        - constructor; auto. rewrite HL. tauto.
        - intros q. simpl. rewrite HL, in_app_iff. simpl.
          assert (p = q -> pos q = Some d) by (intros <-; auto). tauto. }
      destruct d.
      * destruct (SAME LB NB HB) as [NB' HB'].
        destruct (IH (done ++ [p]) handled (p :: LB) LW) as (sc & Esc & Sp); auto.
        { apply OTHER; auto. discriminate. }
        exists sc. split; auto. rewrite <- Esc. f_equal. simpl List.length. lia.
      * destruct (SAME LW NW HW) as [NW' HW'].
        destruct (IH (done ++ [p]) handled LB (p :: LW)) as (sc & Esc & Sp); auto.
        { apply OTHER; auto. discriminate. }
        exists sc. split; auto. rewrite <- Esc. f_equal. simpl List.length. lia.
    + destruct (mem_point_spec p handled) as [M|M].
      * apply (IH (done ++ [p])); auto.
        -- intros q. rewrite Hh. split; intros (x & Hx & Ex & C).
           ++ exists x. rewrite in_app_iff. auto.
           ++ rewrite in_app_iff in Hx. destruct Hx as [Hx|[<-|[]]]; [eauto|].
              apply Hh in M. destruct M as (y & Hy & Ey & Cy).
              exists y. repeat split; auto. eapply connected_trans; eauto.
        -- intros q. rewrite HB, in_app_iff. simpl.
           assert (p = q -> pos q <> Some Black) by (intros <-; congruence). tauto.
        -- intros q. rewrite HW, in_app_iff. simpl.
           assert (p = q -> pos q <> Some White) by (intros <-; congruence). tauto.
      * destruct (make_empty_region_ok pick b p Op E) as (pts & cols & -> & NP & HP & HC).
        cbn [bind]. fold s in HP, HC. fold pos in HP, HC.
        assert (forall q, In q (handled ++ pts) <-> exists q0, In q0 (done ++ [p]) /\
                  pos q0 = None /\ connected s pos q0 q) as Hh'.
        { intros q. rewrite in_app_iff, Hh, HP. split.
          - intros [(x & Hx & Ex & C)|C].
            + exists x. rewrite in_app_iff. auto.
            + exists p. rewrite in_app_iff. simpl. auto.
          - intros (x & Hx & Ex & C). rewrite in_app_iff in Hx.
            destruct Hx as [Hx|[<-|[]]]; eauto. }
        assert (forall q, In q pts -> ~ In q handled) as DJ.
        { intros q Hq C. apply M. apply Hh. apply Hh in C. destruct C as (x & Hx & Ex & C).
          exists x. repeat split; auto. apply HP in Hq.
          eapply connected_trans; [exact C|]. apply connected_sym; auto. }
        assert (forall c q, In q pts -> (counts_for s pos c q <-> existsb (colour_eqb c) cols = true))
          as CF.
        { intros c q Hq. apply HP in Hq. pose proof (connected_same _ _ _ _ Hq) as Eq.
          rewrite HC. unfold counts_for. split.
          - intros [X|(_ & x & r & C & A & Or & Er)]; [congruence|].
            exists x, r. repeat split; auto; try apply Or. eapply connected_trans; eauto.
          - intros (x & r & C & A & Or & Er). right. split; [congruence|].
            exists x, r. repeat split; auto; try apply Or.
            eapply connected_trans; [|exact C]. apply connected_sym; auto. }
        assert (forall c L, NoDup L -> (forall p, In p L <-> (In p done /\ pos p = Some c) \/
                         (In p handled /\ counts_for s pos c p)) ->
            let L' := if existsb (colour_eqb c) cols then pts ++ L else L in
            NoDup L' /\ (forall q, In q L' <-> (In q (done ++ [p]) /\ pos q = Some c) \/
                         (In q (handled ++ pts) /\ counts_for s pos c q)) /\
            Z.of_nat (List.length L') = (if existsb (colour_eqb c) cols
              then Z.of_nat (List.length L) + Z.of_nat (List.length pts)
              else Z.of_nat (List.length L))) as STEP.
        { intros c L NL HL L'. subst L'.
          assert (forall q, p = q -> pos q <> Some c) as PN by (intros q <-; congruence).
          assert (forall q, In q pts -> pos q = None) as PE.
          { intros q Hq. apply HP in Hq. rewrite (connected_same _ _ _ _ Hq). auto. }
          destruct (existsb (colour_eqb c) cols) eqn:Ex.
          - split; [|split].
            + apply NoDup_app_parts. repeat split; auto. intros q Hq C. apply HL in C.
              destruct C as [[_ C]|[C _]].
              * rewrite PE in C by auto. discriminate.
              * eapply DJ; eauto.
            + intros q. rewrite !in_app_iff, HL. simpl. pose proof (CF c q) as CFq.
              rewrite Ex in CFq. pose proof (PN q). tauto.
            + rewrite app_length. lia.
          - split; [|split]; auto.
            intros q. rewrite !in_app_iff, HL. simpl. pose proof (CF c q) as CFq.
            rewrite Ex in CFq. pose proof (PN q).
            assert (false <> true) by discriminate. tauto. }
        destruct (STEP Black LB NB HB) as (NB' & HB' & LB').
        destruct (STEP White LW NW HW) as (NW' & HW' & LW').
        destruct (IH (done ++ [p]) (handled ++ pts) _ _ NDd' Hd' Hh' NB' NW' HB' HW')
          as (sc & Esc & Sp).
        exists sc. split; auto. rewrite <- Esc, LB', LW'. reflexivity.
Qed.

Lemma connected_iff s a a' p q : on_board s p -> same_on s a a' ->
  (connected s a p q <-> connected s a' p q).
Proof.
  intros O H. split; apply connected_ext; auto. apply same_on_sym; auto.
Qed.

Theorem area_score_correct pick b :
  wf b -> exists sc, area_score pick b = Ok sc /\ area_score_spec (side b) (view b) sc.
Proof.
  intros W. unfold area_score.
  destruct (area_loop_ok pick b (board_points (side b)) [] [] [] [])
    as (sc & E & (lb & lw & HB & HW & ES)); simpl.
  - apply NoDup_board_points.
  - intros p. symmetry. apply In_board_points.
  - intros p. split; [tauto|]. intros (q & [] & _).
  - constructor.
  - constructor.
  - tauto.
  - tauto.
  - exists sc. split; [exact E|].
    assert (forall c p, on_board (side b) p ->
      (counts_for (side b) (cell_at (grid b)) c p <-> counts_for (side b) (view b) c p)) as K.
    { intros c p Op. unfold counts_for. pose proof (view_same b W) as VS.
      rewrite (VS p Op). split.
      - intros [X|(X & q & r & C & A & Or & Er)]; auto. right. split; auto.
        exists q, r. rewrite <- (connected_iff _ _ _ p q Op VS). rewrite <- (VS r Or). auto.
      - intros [X|(X & q & r & C & A & Or & Er)]; auto. right. split; auto.
        exists q, r. rewrite (connected_iff _ _ _ p q Op VS). rewrite (VS r Or). auto. }
    exists lb, lw. split; [|split; auto].
    + destruct HB as [N H]. split; auto. intros p. rewrite H.
      split; intros [Op X]; split; auto; apply K; auto.
    + destruct HW as [N H]. split; auto. intros p. rewrite H.
      split; intros [Op X]; split; auto; apply K; auto.
Qed.

Lemma area_score_spec_unique s pos a b :
  area_score_spec s pos a -> area_score_spec s pos b -> a = b.
Proof.
  intros (la & wa & [A1 A2] & [A3 A4] & ->) (lb & wb & [B1 B2] & [B3 B4] & ->).
  assert (forall (l l' : list point), NoDup l -> NoDup l' -> (forall x, In x l <-> In x l') ->
            List.length l = List.length l') as K.
  { intros l l' N N' H. apply Nat.le_antisymm; apply NoDup_incl_length; auto;
      intros x Hx; apply H; auto. }
  rewrite (K la lb), (K wa wb); auto; intros x.
  - rewrite A4, B4. reflexivity.
  - rewrite A2, B2. reflexivity.
Qed.

(** * copy and list_occupied_points *)

Lemma copy_correct b : wf b -> copy b = Ok b.
Proof.
  intros [S [L F]]. unfold copy, new_board.
  destruct (Z.ltb_spec (side b) 2); [lia|]. cbn [bind side].
  f_equal. destruct b as [s g e]. simpl in *. f_equal.
  apply (list_ext []).
  - rewrite map_length. unfold range. rewrite map_length, seq_length. lia.
  - intros i Hi. rewrite map_length in Hi. unfold range in Hi.
    rewrite map_length, seq_length in Hi.
    pose proof (nth_range s (Z.of_nat i) ltac:(lia)) as NR. rewrite Nat2Z.id in NR.
    erewrite nth_error_nth.
    2:{ rewrite nth_error_map, NR. reflexivity. }
    cbv beta. rewrite Nat2Z.id. reflexivity.
Qed.

Lemma list_occupied_correct b : wf b ->
  NoDup (list_occupied_points b) /\
  forall c p, In (c, p) (list_occupied_points b) <-> on_board (side b) p /\ view b p = Some c.
Proof.
  intros W. unfold list_occupied_points. split.
  - assert (forall l, NoDup l -> NoDup (flat_map (fun p => match cell_at (grid b) p with
        | None => [] | Some c => [(c, p)] end) l)) as H.
    { induction l as [|p l IH]; intros ND; simpl; [constructor|]. inv ND.
      destruct (cell_at (grid b) p) as [c|] eqn:E; simpl; auto. constructor; auto.
      rewrite in_flat_map. intros (q & Hq & X).
      destruct (cell_at (grid b) q); [|destruct X]. destruct X as [X|[]]. inv X. auto. }
    apply H, NoDup_board_points.
  - intros c p. rewrite in_flat_map. split.
    + intros (q & Hq & X). apply In_board_points in Hq.
      destruct (cell_at (grid b) q) as [d|] eqn:E; [|destruct X]. destruct X as [X|[]]. inv X.
      split; auto. rewrite view_on; auto.
    + intros [Op V]. exists p. rewrite In_board_points. split; auto.
      rewrite view_on in V by auto. rewrite V. simpl. auto.
Qed.

(** Every legal position can be set up. *)
Lemma legal_reachable (pick : nat -> nat) s pos :
  2 <= s -> legal s pos -> exists b, reachable s b /\ same_on s (view b) pos.
Proof.
  intros S2 Lg.
  assert (exists b0, new_board s = Ok b0) as (b0 & N).
  { unfold new_board. destruct (Z.ltb_spec s 2); [lia|]. eauto. }
  destruct (new_board_good s b0 N) as (G & S & V).
  pose (bl := filter (fun p => cell_eqb (pos p) (Some Black)) (board_points s)).
  pose (wh := filter (fun p => cell_eqb (pos p) (Some White)) (board_points s)).
  destruct (setup_correct pick b0 bl wh [] G) as (b' & f & E & G' & S' & CA & _).
  { intros p Hp. rewrite S. rewrite !in_app_iff in Hp. unfold bl, wh in Hp.
    rewrite !filter_In, In_board_points in Hp. simpl in Hp. tauto. }
  rewrite S in *.
  assert (same_on s (setup_position (view b0) bl wh []) pos) as SP.
  { intros q Oq. unfold setup_position, bl, wh. simpl.
    assert (forall c, mem_point q (filter (fun p => cell_eqb (pos p) (Some c)) (board_points s))
                      = cell_eqb (pos q) (Some c)) as M.
    { intros c. apply eq_true_iff_eq. rewrite mem_point_true, filter_In, In_board_points.
      tauto. }
    rewrite !M. destruct (pos q) as [[|]|]; simpl; auto. }
  exists b'. split.
  - replace b' with (apply_op pick b0 (OpSetup bl wh [])) by (cbn [apply_op]; rewrite E; auto).
    apply reach_op. apply reach_new. exact N.
  - intros q Oq. rewrite <- (SP q Oq). apply (CA q Oq). intros [Nn D]. apply D.
    eapply has_liberty_iff; [exact Oq|exact SP|]. apply Lg; auto. rewrite <- SP; auto.
Qed.

(** * The property statements *)

Lemma C01_proof pick s b p c :
  reachable s b -> on_board s p -> view b p = None ->
  exists b' ko, play pick b (fst p) (snd p) c = (b', Ok ko) /\
                go_move s (view b) p c (view b').
Proof.
  intros R O V. destruct (reachable_good s b R) as [G <-].
  destruct (play_correct pick b p c G O V) as (b' & ko & E & _ & _ & M & _). eauto.
Qed.

Lemma legal_reachable0 s pos :
  2 <= s -> legal s pos -> exists b, reachable s b /\ same_on s (view b) pos.
Proof. exact (legal_reachable (fun _ => 0%nat) s pos). Qed.

Lemma pick_irrelevant_proof pick pick' s b r col c :
  reachable s b -> play pick b r col c = play pick' b r col c.
Proof. intros R. apply play_pick. apply (reachable_good s b R). Qed.

Lemma C02_proof s b :
  reachable s b ->
  side b = s /\ legal s (view b) /\
  (is_empty b = true <-> forall p, on_board s p -> view b p = None).
Proof. intros R. destruct (reachable_good s b R) as [(W & L & F) <-]. auto. Qed.

Lemma C03_play_proof pick s b r col c :
  reachable s b ->
  (snd (play pick b r col c) = Err IndexError <-> ~ on_board s (r, col)) /\
  (snd (play pick b r col c) = Err ValueError <->
     on_board s (r, col) /\ view b (r, col) <> None) /\
  (forall e, snd (play pick b r col c) = Err e ->
     (e = IndexError \/ e = ValueError) /\ fst (play pick b r col c) = b).
Proof.
  intros R. destruct (reachable_good s b R) as [G <-].
  destruct (play_errors pick b r col c (proj1 G)) as [E1 E2].
  destruct (on_boardb_spec (side b) (r, col)) as [O|O].
  - destruct (view b (r, col)) as [d|] eqn:V.
    + rewrite E2 by (auto; congruence). cbn [fst snd]. split; [|split].
      * split; [discriminate|tauto].
      * split; [|reflexivity]. intros _. split; [auto|congruence].
      * intros e H. inv H. auto.
    + destruct (play_correct pick b (r, col) c G O V) as (b' & ko & E & _).
      simpl in E. rewrite E. cbn [fst snd]. split; [|split].
      * split; [discriminate|tauto].
      * split; [discriminate|]. intros [_ N]. congruence.
      * discriminate.
  - rewrite E1 by auto. cbn [fst snd]. split; [|split].
    + split; auto.
    + split; [discriminate|tauto].
    + intros e H. inv H. auto.
Qed.

Lemma C03_get_proof s b r col :
  reachable s b ->
  (on_board s (r, col) -> exists v, get b r col = Ok v) /\
  (~ on_board s (r, col) -> get b r col = Err IndexError).
Proof.
  intros R. destruct (reachable_good s b R) as [(W & _) <-].
  rewrite (get_spec b r col W).
  destruct (on_boardb_spec (side b) (r, col)) as [O|O]; split; intros H; eauto; tauto.
Qed.

Lemma C03_setup_proof pick s b bl wh em :
  reachable s b ->
  ((forall p, In p (bl ++ wh ++ em) -> on_board s p) ->
     exists b' f, apply_setup pick b bl wh em = (b', Ok f)) /\
  (~ (forall p, In p (bl ++ wh ++ em) -> on_board s p) ->
     apply_setup pick b bl wh em = (b, Err IndexError)).
Proof.
  intros R. destruct (reachable_good s b R) as [G <-]. split; intros H.
  - destruct (setup_correct pick b bl wh em G H) as (b' & f & E & _). eauto.
  - apply setup_errors. auto.
Qed.

Lemma C04_proof pick s b p c b' ko :
  reachable s b -> on_board s p -> view b p = None ->
  play pick b (fst p) (snd p) c = (b', Ok ko) ->
  forall k, ko = Some k <-> simple_ko s (view b) p c (view b') k.
Proof.
  intros R O V E. destruct (reachable_good s b R) as [G <-].
  destruct (play_correct pick b p c G O V) as (b1 & ko1 & E1 & _ & _ & _ & K).
  rewrite E in E1. inv E1. exact K.
Qed.

Lemma C04_retake_proof pick s b p c b' k :
  reachable s b -> on_board s p -> view b p = None ->
  play pick b (fst p) (snd p) c = (b', Ok (Some k)) ->
  view b' k = None /\
  play pick b' (fst k) (snd k) (opponent_of c) = (b, Ok (Some p)).
Proof.
  intros R O V E. destruct (reachable_good s b R) as [G <-].
  eapply ko_retake; eauto.
Qed.

Lemma C05_proof pick s b bl wh em :
  reachable s b -> (forall p, In p (bl ++ wh ++ em) -> on_board s p) ->
  exists b' legal_flag,
    apply_setup pick b bl wh em = (b', Ok legal_flag) /\
    clears_all s (setup_position (view b) bl wh em) (view b') /\
    (legal_flag = true <-> legal s (setup_position (view b) bl wh em)).
Proof.
  intros R H. destruct (reachable_good s b R) as [G <-].
  destruct (setup_correct pick b bl wh em G H) as (b' & f & E & _ & _ & C & L).
  exists b', f. auto.
Qed.

Lemma C06_proof pick s b :
  reachable s b -> exists sc, area_score pick b = Ok sc /\ area_score_spec s (view b) sc.
Proof.
  intros R. destruct (reachable_good s b R) as [(W & _) <-]. apply area_score_correct; auto.
Qed.

Lemma copy_proof s b : reachable s b -> copy b = Ok b.
Proof. intros R. apply copy_correct. apply (reachable_good s b R). Qed.

Lemma occupied_proof s b : reachable s b ->
  NoDup (list_occupied_points b) /\
  forall c p, In (c, p) (list_occupied_points b) <-> on_board s p /\ view b p = Some c.
Proof.
  intros R. destruct (reachable_good s b R) as [(W & _) <-].
  apply list_occupied_correct; auto.
Qed.
