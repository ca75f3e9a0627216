(** Proofs about the board model. *)
From Coq Require Import FinFun.
From Verif Require Import Base BoardModel BoardSpec.

Ltac inv H := inversion H; subst; clear H.

(** * Lists *)

Lemma set_nth_length {A} n (v : A) l : List.length (set_nth n v l) = List.length l.
Proof. revert n; induction l as [|h t IH]; intros [|n]; simpl; auto. Qed.

Lemma nth_set_nth {A} n m (v d : A) l :
  (n < List.length l)%nat ->
  nth m (set_nth n v l) d = if Nat.eqb n m then v else nth m l d.
Proof.
  revert n m; induction l as [|h t IH]; intros n m H; simpl in *; [lia|].
  destruct n, m; simpl; auto. apply IH. lia.
Qed.

Lemma remove_nth_In {A} i (l : list A) d x :
  (i < List.length l)%nat -> (In x l <-> x = nth i l d \/ In x (remove_nth i l)).
Proof.
  revert i; induction l as [|h t IH]; intros [|i] H; simpl in *; try lia.
  - intuition congruence.
  - rewrite (IH i) by lia. intuition congruence.
Qed.

Lemma remove_nth_NoDup {A} i (l : list A) d :
  (i < List.length l)%nat -> NoDup l ->
  NoDup (remove_nth i l) /\ ~ In (nth i l d) (remove_nth i l).
Proof.
  revert i; induction l as [|h t IH]; intros [|i] H ND; simpl in *; try lia; inv ND.
  - auto.
  - destruct (IH i) as [A1 A2]; auto; try lia. split.
    + constructor; auto. intro C. apply H2. apply (remove_nth_In i t d); auto; lia.
    + intros [C|C]; auto. apply H2. rewrite C. apply nth_In. lia.
Qed.

Lemma set_add_In p l x : In x (set_add p l) <-> x = p \/ In x l.
Proof.
  unfold set_add. destruct (mem_point_spec p l); rewrite ?in_app_iff; simpl;
    intuition congruence.
Qed.

Lemma NoDup_snoc {A} (l : list A) x : NoDup l -> ~ In x l -> NoDup (l ++ [x]).
Proof.
  intros ND NI. apply NoDup_rev in ND. rewrite <- (rev_involutive (l ++ [x])).
  apply NoDup_rev. rewrite rev_app_distr. simpl. constructor; auto.
  rewrite <- in_rev. exact NI.
Qed.

Lemma set_add_NoDup p l : NoDup l -> NoDup (set_add p l).
Proof.
  unfold set_add. destruct (mem_point_spec p l); auto. intros. apply NoDup_snoc; auto.
Qed.

(** * Points and grids *)

Lemma on_boardb_spec s p : reflect (on_board s p) (on_boardb s p).
Proof.
  destruct (on_boardb s p) eqn:E; constructor; unfold on_boardb, on_board in *;
    rewrite ?andb_true_iff in E; [|intro H; rewrite !andb_false_iff in E]; lia.
Qed.

Lemma on_boardb_true s p : on_boardb s p = true <-> on_board s p.
Proof. destruct (on_boardb_spec s p); intuition congruence. Qed.

Lemma In_range n x : In x (range n) <-> 0 <= x < n.
Proof.
  unfold range. rewrite in_map_iff. split.
  - intros (k & <- & H). apply in_seq in H. lia.
  - intros H. exists (Z.to_nat x). rewrite in_seq. lia.
Qed.

Lemma In_board_points s p : In p (board_points s) <-> on_board s p.
Proof.
  unfold board_points, on_board. rewrite in_flat_map. destruct p as [r c]; simpl. split.
  - intros (x & Hx & H). apply in_map_iff in H. destruct H as (y & E & Hy). inv E.
    rewrite In_range in *. lia.
  - intros H. exists r. rewrite In_range, in_map_iff. split; [lia|].
    exists c. rewrite In_range. split; auto; lia.
Qed.

Lemma NoDup_range n : NoDup (range n).
Proof.
  unfold range. apply FinFun.Injective_map_NoDup; [|apply seq_NoDup].
  intros a b. lia.
Qed.

Lemma NoDup_board_points s : NoDup (board_points s).
Proof.
  unfold board_points.
  assert (forall l : list Z, NoDup l ->
    NoDup (flat_map (fun r => map (fun c => (r, c)) (range s)) l)) as H.
  { induction l as [|r l IH]; simpl; intros ND; [constructor|]. inv ND.

    assert (forall A (l1 l2 : list A), NoDup l1 -> NoDup l2 ->
              (forall x, In x l1 -> ~ In x l2) -> NoDup (l1 ++ l2)) as APP.
    { clear. induction l1 as [|a l1 IH]; simpl; intros l2 N1 N2 D; auto. inv N1.
      constructor. - rewrite in_app_iff. intros [C|C]; auto. apply (D a); auto.
      - apply IH; auto. }
    apply APP; auto.
    - apply FinFun.Injective_map_NoDup; [|apply NoDup_range]. congruence.
    - intros [x y] Hx Hy. apply in_map_iff in Hx. destruct Hx as (c & E & _). inv E.
      apply in_flat_map in Hy. destruct Hy as (r' & Hr & Hy).
      apply in_map_iff in Hy. destruct Hy as (c' & E & _). inv E. auto. }
  apply H, NoDup_range.
Qed.

Lemma board_points_length s : 0 <= s -> Z.of_nat (List.length (board_points s)) = s * s.
Proof.
  intros Hs. unfold board_points.
  assert (List.length (range s) = Z.to_nat s) as L.
  { unfold range. rewrite map_length, seq_length. reflexivity. }
  assert (forall l : list Z, List.length (flat_map (fun r => map (fun c => (r, c)) (range s)) l)
                    = (List.length l * Z.to_nat s)%nat) as H.
  { induction l as [|a l IH]; simpl; auto. rewrite app_length, map_length, L, IH. lia. }
  rewrite H, L. lia.
Qed.

Definition gwf (s : Z) (g : list (list cell)) : Prop :=
  Z.of_nat (List.length g) = s /\ Forall (fun r => Z.of_nat (List.length r) = s) g.

Definition wf (b : board) : Prop := 2 <= side b /\ gwf (side b) (grid b).

Lemma gwf_nth s g i : gwf s g -> 0 <= i < s -> Z.of_nat (List.length (nth (Z.to_nat i) g [])) = s.
Proof.
  intros [L F] H. rewrite Forall_forall in F. apply F. apply nth_In. lia.
Qed.

Lemma gwf_set_cell s g p v : gwf s g -> gwf s (set_cell g p v).
Proof.
  intros [L F]. unfold set_cell. split; [rewrite set_nth_length; auto|].
  rewrite Forall_forall in *.
  assert (forall n r (l : list (list cell)) x, In x (set_nth n r l) -> x = r /\ (n < List.length l)%nat \/ In x l) as H.
  { clear. intros n r l; revert n; induction l as [|h t IH]; intros [|n] x; simpl; auto; try tauto.
    - intros [<-|H]; auto. left; split; auto; lia.
    - intros [<-|H]; auto. destruct (IH _ _ H) as [[? ?]|?]; auto. left; split; auto; lia. }
  intros x Hx. apply H in Hx. destruct Hx as [[-> Hn]|Hx]; auto.
  rewrite set_nth_length. apply F. apply nth_In. exact Hn.
Qed.

Lemma cell_at_set_cell s g p q v :
  gwf s g -> on_board s p -> on_board s q ->
  cell_at (set_cell g p v) q = if point_eqb p q then v else cell_at g q.
Proof.
  intros W [Hp1 Hp2] [Hq1 Hq2]. unfold cell_at, set_cell.
  pose proof (gwf_nth s g (fst p) W Hp1) as Lp. destruct W as [L F].
  rewrite nth_set_nth by lia.
  destruct (point_eqb_spec p q) as [->|NE].
  - rewrite Nat.eqb_refl. rewrite nth_set_nth by lia. rewrite Nat.eqb_refl. reflexivity.
  - destruct (Nat.eqb_spec (Z.to_nat (fst p)) (Z.to_nat (fst q))) as [E|E]; auto.
    assert (fst p = fst q) as E1 by lia.
    rewrite nth_set_nth by lia. rewrite E1 in *.
    destruct (Nat.eqb_spec (Z.to_nat (snd p)) (Z.to_nat (snd q))) as [E2|E2]; auto.
    exfalso. apply NE. destruct p, q; simpl in *. f_equal; lia.
Qed.

Lemma get_spec b r c :
  wf b -> get b r c = if on_boardb (side b) (r, c) then Ok (cell_at (grid b) (r, c))
                      else Err IndexError.
Proof.
  intros [S W]. unfold get. destruct (on_boardb_spec (side b) (r, c)) as [H|H];
    unfold on_board in H; simpl in H.
  - replace ((r <? 0) || (c <? 0)) with false by (symmetry; apply orb_false_iff; lia).
    pose proof (gwf_nth _ _ r W ltac:(lia)) as Lr. destruct W as [L F].
    rewrite (nth_error_nth' (grid b) []) by lia. cbv iota.
    rewrite (nth_error_nth' _ (None : cell)) by lia. reflexivity.
  - destruct ((r <? 0) || (c <? 0)) eqn:E; auto. apply orb_false_iff in E.
    destruct (nth_error (grid b) (Z.to_nat r)) as [row|] eqn:Er; auto.
    destruct (nth_error row (Z.to_nat c)) as [v|] eqn:Ec; auto.
    exfalso. apply H. destruct W as [L F].
    assert (Z.of_nat (List.length row) = side b) as Lrow.
    { rewrite Forall_forall in F. apply F. eapply nth_error_In; eauto. }
    assert (nth_error (grid b) (Z.to_nat r) <> None) as Nr by congruence.
    assert (nth_error row (Z.to_nat c) <> None) as Nc by congruence.
    apply nth_error_Some in Nr. apply nth_error_Some in Nc. lia.
Qed.

Lemma view_on b p : wf b -> on_board (side b) p -> view b p = cell_at (grid b) p.
Proof.
  intros W H. unfold view. destruct p as [r c]; simpl. rewrite get_spec by auto.
  apply on_boardb_true in H. rewrite H. reflexivity.
Qed.

Lemma view_off b p : wf b -> ~ on_board (side b) p -> view b p = None.
Proof.
  intros W H. unfold view. destruct p as [r c]; simpl. rewrite get_spec by auto.
  destruct (on_boardb_spec (side b) (r, c)); tauto.
Qed.

Lemma neighbours_adj p q : In q (neighbours p) <-> adj p q.
Proof.
  destruct p as [r c], q as [r' c']. unfold adj. simpl. split.
  - intros [E|[E|[E|[E|[]]]]]; inv E; lia.
  - intros H.
    assert ((r' = r - 1 /\ c' = c) \/ (r' = r + 1 /\ c' = c) \/
            (r' = r /\ c' = c - 1) \/ (r' = r /\ c' = c + 1)) as D by lia.
    destruct D as [[-> ->]|[[-> ->]|[[-> ->]|[-> ->]]]]; auto.
Qed.

Lemma adj_sym p q : adj p q -> adj q p.
Proof. unfold adj. lia. Qed.

Lemma adj_irrefl p : ~ adj p p.
Proof. unfold adj. lia. Qed.

(** * Connectivity *)

Lemma connected_same s pos p q : connected s pos p q -> pos q = pos p.
Proof. induction 1; congruence. Qed.

Lemma connected_on s pos p q : connected s pos p q -> on_board s p -> on_board s q.
Proof. induction 1; auto. Qed.

Lemma connected_trans s pos p q r :
  connected s pos p q -> connected s pos q r -> connected s pos p r.
Proof.
  intros H1 H2. pose proof (connected_same _ _ _ _ H1) as E.
  induction H2; auto. eapply conn_step; eauto. congruence.
Qed.

Lemma connected_sym s pos p q :
  on_board s p -> connected s pos p q -> connected s pos q p.
Proof.
  intros O H. induction H as [|q r H IH A Or E]; [constructor|].
  pose proof (connected_on _ _ _ _ H O) as Oq.
  pose proof (connected_same _ _ _ _ H) as Eq.
  eapply connected_trans; [|exact IH].
  eapply conn_step; [apply conn_refl| apply adj_sym; exact A | exact Oq | congruence].
Qed.

Lemma connected_ext s pos pos' p q :
  on_board s p -> same_on s pos pos' -> connected s pos p q -> connected s pos' p q.
Proof.
  intros O H C. induction C as [|q r C IH A Or E]; [constructor|].
  eapply conn_step; eauto. rewrite <- !H; auto.
Qed.

Lemma has_liberty_ext s pos pos' p :
  on_board s p -> same_on s pos pos' -> has_liberty s pos p -> has_liberty s pos' p.
Proof.
  intros O H (q & l & C & A & Ol & E). exists q, l. repeat split; auto; try apply Ol.
  - eapply connected_ext; eauto.
  - rewrite <- H; auto.
Qed.

Lemma has_liberty_connected s pos p q :
  connected s pos p q -> has_liberty s pos q -> has_liberty s pos p.
Proof.
  intros C (x & l & Cx & R). exists x, l. split; auto. eapply connected_trans; eauto.
Qed.

(** * The flood fill *)

  Lemma NoDup_app_parts {B} (l1 l2 : list B) :
    NoDup (l1 ++ l2) <-> NoDup l1 /\ NoDup l2 /\ (forall x, In x l1 -> ~ In x l2).
  Proof.
    induction l1 as [|a l1 IH]; simpl.
    - split; [intros H; repeat split; auto; constructor | tauto].
    - split.
      + intros H. inv H. apply IH in H3. destruct H3 as (N1 & N2 & D).
        rewrite in_app_iff in H2. repeat split; auto.
        * constructor; tauto.
        * intros x [<-|H]; auto.
      + intros (N1 & N2 & D). inv N1. constructor.
        * rewrite in_app_iff. intros [C|C]; auto. apply (D a); auto.
        * apply IH. repeat split; auto.
  Qed.

Section Flood.
  Context {A : Type}.
  Variable pick : nat -> nat.
  Variable b : board.
  Variable target : cell.
  Variable visit : cell -> A -> A.
  Let s := side b.
  Let pos := cell_at (grid b).

  Lemma scan_fold points L todo acc :
    NoDup todo ->
    exists todo' seen,
      fold_left (scan_neighbour b target visit points) L (todo, acc) =
        (todo', fold_left (fun a x => visit x a) seen acc) /\
      NoDup todo' /\
      (forall q, In q todo' <-> In q todo \/
         (In q L /\ on_board s q /\ pos q = target /\ ~ In q points)) /\
      (forall x, In x seen <-> exists q, In q L /\ on_board s q /\ pos q = x /\ x <> target).
  Proof.
    revert todo acc. induction L as [|q0 L IH]; intros todo acc ND; cbn [fold_left].
    - exists todo, []. split; [reflexivity|]. split; [exact ND|]. split.
      + intros q. simpl. tauto.
      + intros x. simpl. split; [tauto|]. intros (q & [] & _).
    - match goal with |- context [fold_left _ L ?X] =>
        let Y := eval cbv beta delta [scan_neighbour] in X in change X with Y end.
      cbv beta iota. fold s.
      destruct (on_boardb_spec s q0) as [O|O]; simpl.
      + fold pos. destruct (cell_eqb_spec (pos q0) target) as [E|E].
        * destruct (mem_point_spec q0 points) as [M|M].
          { destruct (IH todo acc ND) as (t & sn & E1 & ND1 & H1 & H2).
            exists t, sn. split; [exact E1|]. split; auto. split.
            - intros q. rewrite H1. intuition congruence.
            - intros x. rewrite H2. split; intros (q & Hq & R).
              + exists q; auto.
              + destruct Hq as [<-|Hq]; [intuition congruence|]. exists q; auto. }
          { destruct (IH (set_add q0 todo) acc (set_add_NoDup q0 todo ND))
              as (t & sn & E1 & ND1 & H1 & H2).
            exists t, sn. split; [exact E1|]. split; auto. split.
            - intros q. rewrite H1, set_add_In. split.
              + intros [[->|H]|H]; intuition.
              + intros [H|[[<-|H] R]]; intuition.
            - intros x. rewrite H2. split; intros (q & Hq & R).
              + exists q; auto.
              + destruct Hq as [<-|Hq]; [intuition congruence|]. exists q; auto. }
        * destruct (IH todo (visit (pos q0) acc) ND) as (t & sn & E1 & ND1 & H1 & H2).
          exists t, (pos q0 :: sn). split; [exact E1|]. split; auto. split.
          { intros q. rewrite H1. intuition congruence. }
          { intros x. simpl. rewrite H2. split.
            - intros [<-|(q & Hq & R)]; [exists q0; auto|exists q; auto].
            - intros (q & [<-|Hq] & O' & Ex & N); auto. right. exists q; auto. }
      + destruct (IH todo acc ND) as (t & sn & E1 & ND1 & H1 & H2).
        exists t, sn. split; [exact E1|]. split; auto. split.
        * intros q. rewrite H1. intuition congruence.
        * intros x. rewrite H2. split; intros (q & Hq & R).
          -- exists q; auto.
          -- destruct Hq as [<-|Hq]; [intuition congruence|]. exists q; auto.
  Qed.

  Variable start : point.
  Hypothesis start_on : on_board s start.
  Hypothesis start_target : pos start = target.

  Definition seen_by (points : list point) (seen : list cell) : Prop :=
    forall x, In x seen <->
      exists p q, In p points /\ adj p q /\ on_board s q /\ pos q = x /\ x <> target.

  Record flood_inv (points todo : list point) : Prop := {
    fi_nd : NoDup (points ++ todo);
    fi_conn : forall p, In p (points ++ todo) -> connected s pos start p;
    fi_start : In start (points ++ todo);
    fi_closed : forall p q, In p points -> adj p q -> on_board s q -> pos q = target ->
                            In q (points ++ todo)
  }.

  Lemma flood_inv_length points todo :
    flood_inv points todo -> (List.length points + List.length todo <= flood_fuel b)%nat.
  Proof.
    intros H. rewrite <- app_length. apply NoDup_incl_length; [apply H|].
    intros p Hp. apply In_board_points. eapply connected_on; [|exact start_on].
    apply H; auto.
  Qed.

  Lemma flood_correct acc0 : forall fuel points todo acc seen,
    flood_inv points todo ->
    acc = fold_left (fun a x => visit x a) seen acc0 -> seen_by points seen ->
    (flood_fuel b <= fuel + List.length points)%nat ->
    exists pts seen',
      flood pick fuel b target visit points todo acc =
        Ok (pts, fold_left (fun a x => visit x a) seen' acc0) /\
      NoDup pts /\ (forall p, In p pts <-> connected s pos start p) /\ seen_by pts seen'.
  Proof.
    induction fuel as [|fuel IH]; intros points todo acc seen I Ea Sn F.
    - pose proof (flood_inv_length _ _ I) as Len.
      assert (todo = []) as -> by (destruct todo; simpl in *; auto; lia).
      exists points, seen. simpl. subst acc. split; auto.
      destruct I as [nd cn st cl]. rewrite app_nil_r in *.
      repeat split; auto; try apply Sn. intros C.
      induction C as [|q r C IHC A' O E]; auto. apply (cl q r); auto. congruence.
    - destruct todo as [|t0 todo].
      { exists points, seen. simpl. subst acc. split; auto.
        destruct I as [nd cn st cl]. rewrite app_nil_r in *.
        repeat split; auto; try apply Sn. intros C.
        induction C as [|q r C IHC A' O E]; auto. apply (cl q r); auto. congruence. }
      cbn [flood]. set (td := t0 :: todo) in *.
      set (i := pop_index pick (S fuel) td).
      assert (i < List.length td)%nat as Hi.
      { unfold i, pop_index. apply Nat.mod_upper_bound. subst td; simpl; lia. }
      set (p := nth i td t0).
      destruct I as [nd cn st cl].
      apply NoDup_app_parts in nd. destruct nd as (nd1 & nd2 & dj).
      destruct (remove_nth_NoDup i td t0 Hi nd2) as [ndr nir]. fold p in nir.
      pose proof (remove_nth_In i td t0) as RI. fold p in RI.
      assert (In p td) as Hp by (apply nth_In; auto).
      assert (~ In p points) as Hnp by (intro C; apply (dj p); auto).
      assert (set_add p points = points ++ [p]) as SA.
      { unfold set_add. destruct (mem_point_spec p points); tauto. }
      destruct (scan_fold (set_add p points) (neighbours p) (remove_nth i td) acc ndr)
        as (todo' & sn & E1 & ND1 & H1 & H2).
      rewrite E1. rewrite SA in *.
      assert (connected s pos start p) as Cp by (apply cn; rewrite in_app_iff; auto).
      assert (pos p = target) as Ep by (rewrite (connected_same _ _ _ _ Cp); auto).
      apply (IH (points ++ [p]) todo' _ (seen ++ sn)).
      + split.
        * apply NoDup_app_parts. split; [apply NoDup_snoc; auto|]. split; auto.
          intros x Hx Ht. apply in_app_iff in Hx. simpl in Hx. apply H1 in Ht.
          destruct Ht as [Ht|(Hn & O & E & N)].
          -- destruct Hx as [Hx|[<-|[]]]; [|tauto].
             apply (dj x Hx). apply (RI x Hi). auto.
          -- apply N. rewrite in_app_iff. simpl. tauto.
        * intros x Hx. apply in_app_iff in Hx. destruct Hx as [Hx|Hx].
          -- apply in_app_iff in Hx. destruct Hx as [Hx|[<-|[]]]; auto.
             apply cn, in_app_iff; auto.
          -- apply H1 in Hx. destruct Hx as [Hx|(Hn & O & E & N)].
             ++ apply cn, in_app_iff. right. apply (RI x Hi). auto.
             ++ eapply conn_step; [exact Cp | apply neighbours_adj; exact Hn | exact O |].
                congruence.
        * rewrite !in_app_iff in *. simpl. destruct st as [st|st]; auto.
          apply (RI _ Hi) in st. destruct st as [st|st]; [auto|]. right. apply H1. auto.
        * intros x y Hx Ha O E. rewrite in_app_iff in Hx. simpl in Hx.
          assert (In y (points ++ [p]) \/ ~ In y (points ++ [p])) as [D|D]
            by (destruct (mem_point_spec y (points ++ [p])); auto).
          { apply in_app_iff; auto. }
          apply in_app_iff. right. apply H1. destruct Hx as [Hx|[<-|[]]].
          -- left. pose proof (cl x y Hx Ha O E) as G. apply in_app_iff in G.
             rewrite in_app_iff in D. simpl in D. destruct G as [G|G]; [tauto|].
             apply (RI y Hi) in G. destruct G as [G|G]; auto. subst y. tauto.
          -- right. split; [apply neighbours_adj; auto|]. auto.
      + subst acc. rewrite fold_left_app. reflexivity.
      + intros x. rewrite in_app_iff, (Sn x), (H2 x). split.
        * intros [(u & q & Hu & R)|(q & Hq & R)].
          -- exists u, q. rewrite in_app_iff. auto.
          -- exists p, q. rewrite in_app_iff. simpl. rewrite <- neighbours_adj. auto.
        * intros (u & q & Hu & Ha & R). rewrite in_app_iff in Hu. simpl in Hu.
          destruct Hu as [Hu|[<-|[]]]; [left; exists u, q; auto|].
          right. exists q. rewrite neighbours_adj. auto.
      + rewrite app_length. simpl. lia.
  Qed.

  Lemma flood_start acc0 :
    exists pts seen,
      flood pick (flood_fuel b) b target visit [] [start] acc0 =
        Ok (pts, fold_left (fun a x => visit x a) seen acc0) /\
      NoDup pts /\ (forall p, In p pts <-> connected s pos start p) /\ seen_by pts seen.
  Proof.
    apply flood_correct with (seen := []).
    - split; simpl.
      + constructor; [tauto|constructor].
      + intros p [<-|[]]. constructor.
      + auto.
      + intros p q [].
    - reflexivity.
    - intros x. simpl. split; [tauto|]. intros (p & q & [] & _).
    - simpl. lia.
  Qed.
End Flood.

(** * Groups and regions *)

Section Groups.
  Variable pick : nat -> nat.
  Variable b : board.
  Let s := side b.
  Let pos := cell_at (grid b).

  Definition group_ok (p : point) (g : group) : Prop :=
    pos p = Some (g_colour g) /\ on_board s p /\ NoDup (g_points g) /\
    (forall q, In q (g_points g) <-> connected s pos p q) /\
    (g_surrounded g = true <-> ~ has_liberty s pos p) /\
    (g_surrounded g = false -> has_liberty s pos p).

  Lemma make_group_ok p c :
    on_board s p -> pos p = Some c ->
    exists g, make_group pick b p c = Ok g /\ group_ok p g.
  Proof.
    intros O E. unfold make_group.
    destruct (flood_start pick b (Some c)
      (fun nc acc => match nc with None => false | Some _ => acc end) p O E true)
      as (pts & seen & -> & ND & H & Sn).
    cbn [bind]. eexists. split; [reflexivity|].
    split; [exact E|]. split; [exact O|]. split; [exact ND|]. split; [exact H|].
    cbn [g_surrounded].
    assert (forall (l : list cell) (a : bool), fold_left (fun a (x : cell) => match x with None => false | Some _ => a end) l a
                      = true <-> a = true /\ ~ In None l) as FL.
    { clear. induction l as [|[x|] l IH]; intros a; simpl.
      - intuition. - rewrite IH. intuition congruence. - rewrite IH. intuition congruence. }
    split; [rewrite FL; rewrite (Sn None); split|].
    - intros [_ N] (q & l & C & A & Ol & El). apply N. exists q, l.
      rewrite H. repeat split; auto; try apply Ol; congruence.
    - intros N. split; auto. intros (q & l & C & A & Ol & El & _). apply N.
      exists q, l. rewrite H in C. auto.
    - intros F.
      destruct (in_dec (fun x y : cell => reflect_dec _ _ (cell_eqb_spec x y)) None seen)
        as [D|D].
      + apply Sn in D. destruct D as (q & l & C & A & Ol & El & _).
        rewrite H in C. exists q, l. auto.
      + exfalso.
        assert (fold_left (fun a (x : cell) => match x with None => false | Some _ => a end)
                          seen true = true) as T by (apply FL; auto).
        congruence.
  Qed.

  (** Specification of the list of surrounded groups. *)
  Definition surrounded_ok (gs : list group) : Prop :=
    (forall g, In g gs -> exists p, group_ok p g /\ ~ has_liberty s pos p) /\
    (forall p, on_board s p -> pos p <> None -> ~ has_liberty s pos p ->
       exists g, In g gs /\ In p (g_points g)) /\
    ForallOrdPairs (fun g h => forall q, In q (g_points g) -> ~ In q (g_points h)) gs.

  Lemma ForallOrdPairs_snoc {B} (R : B -> B -> Prop) l x :
    ForallOrdPairs R l -> (forall y, In y l -> R y x) -> ForallOrdPairs R (l ++ [x]).
  Proof.
    induction l as [|a l IH]; simpl; intros F H.
    - constructor; constructor.
    - inv F. constructor; auto. rewrite Forall_forall in *. intros y Hy.
      apply in_app_iff in Hy. destruct Hy as [Hy|[<-|[]]]; auto.
  Qed.

  Lemma find_loop_ok : forall rest done handled sur,
    (forall p, on_board s p <-> In p (done ++ rest)) ->
    (forall p, In p handled <-> exists q, In q done /\ pos q <> None /\ connected s pos q p) ->
    (forall g, In g sur -> exists p, In p done /\ group_ok p g /\ ~ has_liberty s pos p) ->
    (forall p, In p done -> pos p <> None -> ~ has_liberty s pos p ->
       exists g, In g sur /\ In p (g_points g)) ->
    ForallOrdPairs (fun g h => forall q, In q (g_points g) -> ~ In q (g_points h)) sur ->
    exists gs, find_surrounded_loop pick b rest handled sur = Ok gs /\ surrounded_ok gs.
  Proof.
    induction rest as [|p rest IH]; intros done handled sur Hd Hh Hs Hc Hp;
      cbn [find_surrounded_loop].
    - exists sur. split; auto. split; [|split]; auto.
      + intros g Hg. destruct (Hs g Hg) as (q & _ & R). eauto.
      + intros q Oq. apply Hd in Oq. rewrite app_nil_r in Oq. auto.
    - assert (on_board s p) as Op by (apply Hd; rewrite in_app_iff; simpl; auto).
      assert (forall q, on_board s q <-> In q ((done ++ [p]) ++ rest)) as Hd'.
      { intros q. rewrite <- app_assoc. apply Hd. }
      fold pos. destruct (pos p) as [c|] eqn:E.
      + destruct (mem_point_spec p handled) as [M|M].
        * apply (IH (done ++ [p])); auto.
          -- intros q. rewrite Hh. split.
             ++ intros (x & Hx & R). exists x. rewrite in_app_iff. auto.
             ++ intros (x & Hx & N & C). rewrite in_app_iff in Hx. simpl in Hx.
                destruct Hx as [Hx|[<-|[]]]; [eauto|].
                apply Hh in M. destruct M as (y & Hy & Ny & Cy). exists y.
                repeat split; auto. eapply connected_trans; eauto.
          -- intros g Hg. destruct (Hs g Hg) as (x & Hx & R). exists x.
             rewrite in_app_iff. auto.
          -- intros q Hq N L. rewrite in_app_iff in Hq. simpl in Hq.
             destruct Hq as [Hq|[<-|[]]]; auto.
             apply Hh in M. destruct M as (y & Hy & Ny & Cy).
             assert (on_board s y) as Oy by (apply Hd, in_app_iff; auto).
             assert (~ has_liberty s pos y) as Ly.
             { intro C. apply L. eapply has_liberty_connected; [|exact C].
               apply connected_sym; auto. }
             destruct (Hc y Hy Ny Ly) as (g & Hg & Hyg).
             exists g. split; auto. destruct (Hs g Hg) as (z & _ & (_ & _ & _ & Iz & _) & _).
             apply Iz. eapply connected_trans; [apply Iz; exact Hyg|exact Cy].
        * destruct (make_group_ok p c Op E) as (g & -> & G). cbn [bind].
          pose proof G as (G1 & G2 & G3 & G4 & G5 & _).
          apply (IH (done ++ [p])); auto.
          -- intros q. rewrite in_app_iff, Hh, G4. split.
             ++ intros [(x & Hx & R)|C]; [exists x; rewrite in_app_iff; auto|].
                exists p. rewrite in_app_iff. simpl. repeat split; auto. congruence.
             ++ intros (x & Hx & N & C). rewrite in_app_iff in Hx. simpl in Hx.
                destruct Hx as [Hx|[<-|[]]]; eauto.
          -- intros h Hh'.
             assert (In h sur \/ (h = g /\ g_surrounded g = true)) as [D|[-> D]].
             { destruct (g_surrounded g); auto. apply in_app_iff in Hh'.
               destruct Hh' as [?|[<-|[]]]; auto. }
             ++ destruct (Hs h D) as (x & Hx & R). exists x. rewrite in_app_iff. auto.
             ++ exists p. rewrite in_app_iff. simpl. split; [auto|]. split; [exact G|].
                apply G5; auto.
          -- intros q Hq N L. rewrite in_app_iff in Hq. simpl in Hq.
             destruct Hq as [Hq|[<-|[]]].
             ++ destruct (Hc q Hq N L) as (h & Hh1 & Hh2). exists h. split; auto.
                destruct (g_surrounded g); auto. apply in_app_iff; auto.
             ++ apply G5 in L. rewrite L. exists g. rewrite in_app_iff. simpl. split; auto.
                apply G4. constructor.
          -- destruct (g_surrounded g) eqn:Sg; auto. apply ForallOrdPairs_snoc; auto.
             intros h Hh' q Hq1 Hq2. apply G4 in Hq2. apply M. apply Hh.
             destruct (Hs h Hh') as (x & Hx & (X1 & X2 & X3 & X4 & X5) & _).
             exists x. split; auto. split; [congruence|].
             eapply connected_trans; [apply X4; exact Hq1|].
             apply connected_sym; auto.
      + apply (IH (done ++ [p])); auto.
        * intros q. rewrite Hh. split.
          -- intros (x & Hx & R). exists x. rewrite in_app_iff. auto.
          -- intros (x & Hx & N & C). rewrite in_app_iff in Hx. simpl in Hx.
             destruct Hx as [Hx|[<-|[]]]; [eauto|congruence].
        * intros g Hg. destruct (Hs g Hg) as (x & Hx & R). exists x. rewrite in_app_iff. auto.
        * intros q Hq N L. rewrite in_app_iff in Hq. simpl in Hq.
          destruct Hq as [Hq|[<-|[]]]; [auto|congruence].
  Qed.

  Lemma find_surrounded_ok :
    exists gs, find_surrounded_groups pick b = Ok gs /\ surrounded_ok gs.
  Proof.
    unfold find_surrounded_groups. apply (find_loop_ok (board_points (side b)) []); simpl.
    - intros p. symmetry. apply In_board_points.
    - intros p. split; [tauto|]. intros (q & [] & _).
    - intros g [].
    - intros p [].
    - constructor.
  Qed.
End Groups.
