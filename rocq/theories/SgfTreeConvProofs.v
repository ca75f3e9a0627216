(** Proofs about the tree conversions (C15). *)
From Verif Require Import Base Bytes SgfGrammarModel SgfGrammarSpec SgfGrammarProofs SgfTreeConvModel.

(** * Heap lemmas *)

Lemma update_length {A} i (x : A) h : List.length (update i x h) = List.length h.
Proof. revert i. induction h as [|y h IH]; intros [|i]; simpl; auto. Qed.

Lemma nth_update_same {A} i (x : A) h : (i < List.length h)%nat -> nth_error (update i x h) i = Some x.
Proof. revert i. induction h as [|y h IH]; intros [|i] L; simpl in *; try lia; auto. apply IH. lia. Qed.

Lemma nth_update_other {A} i j (x : A) h : i <> j -> nth_error (update i x h) j = nth_error h j.
Proof.
  revert i j. induction h as [|y h IH]; intros [|i] [|j] N; simpl; auto; try congruence.
Qed.

Lemma nth_app_old {A} (h h' : list A) i x : nth_error h i = Some x -> nth_error (h ++ h') i = Some x.
Proof. intros H. rewrite nth_error_app1; auto. apply nth_error_Some. congruence. Qed.

Lemma nth_lt {A} (h : list A) i x : nth_error h i = Some x -> (i < List.length h)%nat.
Proof. intros H. apply nth_error_Some. congruence. Qed.

Lemma Forall2_length {A B} (R : A -> B -> Prop) l l' : Forall2 R l l' -> List.length l = List.length l'.
Proof. induction 1; simpl; auto. Qed.

Fixpoint ntree_ind' (P : ntree -> Prop)
  (H : forall m ks, Forall P ks -> P (NT m ks)) (t : ntree) : P t :=
  match t with
  | NT m ks => H m ks ((fix go (l : list ntree) : Forall P l :=
                          match l with
                          | [] => Forall_nil P
                          | x :: r => Forall_cons x (ntree_ind' P H x) (go r)
                          end) ks)
  end.

(** * make_tree *)

Definition addr (w : nat * ctree * nat) : nat := fst (fst w).

(** What a work item says about the heap, and what it promises. *)
Definition item_ok (h : nheap) (w : nat * ctree * nat) : Prop :=
  let '(i, t, k) := w in
  seqs_ok t /\ exists m, nth_error (c_sequence t) k = Some m /\ nth_error h i = Some (mkN m []).

Definition item_done (h : nheap) (w : nat * ctree * nat) : Prop :=
  let '(i, t, k) := w in
  exists nt, denotes (CT (skipn k (c_sequence t)) (c_children t)) nt /\ reads_node h i nt.

Lemma add_node_spec h p m m0 ks0 : nth_error h p = Some (mkN m0 ks0) ->
  exists h1, add_node h p m = (h1, List.length h) /\
    List.length h1 = S (List.length h) /\
    nth_error h1 p = Some (mkN m0 (ks0 ++ [List.length h])) /\
    nth_error h1 (List.length h) = Some (mkN m []) /\
    (forall i, i <> p -> (i < List.length h)%nat -> nth_error h1 i = nth_error h i).
Proof.
  intros H. unfold add_node. rewrite (nth_app_old h [mkN m []] p _ H). cbn [n_props n_kids].
  pose proof (nth_lt _ _ _ H) as L.
  eexists. split; [reflexivity|]. repeat split.
  - rewrite update_length, app_length. simpl. lia.
  - apply nth_update_same. rewrite app_length. simpl. lia.
  - rewrite nth_update_other by lia. rewrite nth_error_app2, Nat.sub_diag by lia. reflexivity.
  - intros i N Li. rewrite nth_update_other by lia. apply nth_error_app1. lia.
Qed.

Lemma add_variations_spec : forall ch h p m0 ks0,
  nth_error h p = Some (mkN m0 ks0) -> Forall seqs_ok ch ->
  exists h1 items, add_variations h p ch = Ok (h1, items) /\
    (List.length h <= List.length h1)%nat /\
    nth_error h1 p = Some (mkN m0 (ks0 ++ map addr items)) /\
    (forall i, i <> p -> (i < List.length h)%nat -> nth_error h1 i = nth_error h i) /\
    Forall (item_ok h1) items /\
    Forall (fun w => (List.length h <= addr w)%nat) items /\ NoDup (map addr items) /\
    map (fun w => (snd (fst w), snd w)) items = map (fun t => (t, O)) ch.
Proof.
  induction ch as [|[sq cc] ch IH]; intros h p m0 ks0 H F; cbn [add_variations].
  - exists h, []. simpl. rewrite app_nil_r. repeat split; auto; constructor.
  - inv F. inversion H2 as [sq' cc' Ns Fc]; subst. destruct sq as [|m sq]; [congruence|].
    destruct (add_node_spec h p m m0 ks0 H) as (h1 & -> & L1 & P1 & C1 & O1).
    destruct (IH h1 p m0 _ P1 H3) as (h2 & items & -> & L2 & P2 & O2 & I2 & A2 & ND & M2).
    cbn [bind]. eexists _, _. split; [reflexivity|].
    pose proof (nth_lt _ _ _ H) as Lp.
    cbn [map]. unfold addr at 1. cbn [fst snd].
    repeat split.
    + lia.
    + rewrite P2. rewrite <- app_assoc. reflexivity.
    + intros i N Li. rewrite O2 by lia. apply O1; auto.
    + constructor; auto. unfold item_ok. split; auto. exists m. split; auto.
      rewrite O2 by lia. exact C1.
    + constructor; [unfold addr; simpl; lia|]. eapply Forall_impl; [|exact A2]. simpl. intros; lia.
    + constructor; auto. intro C. apply in_map_iff in C. destruct C as (w & Ew & Hw).
      rewrite Forall_forall in A2. apply A2 in Hw. unfold addr in *. cbn [fst snd] in *. lia.
    + rewrite M2. reflexivity.
Qed.

(** Nodes still to be built below the work items. *)
Definition work (w : nat * ctree * nat) : nat :=
  let '(_, t, k) := w in (ctree_nodes t - k)%nat.

Definition work_total (l : list (nat * ctree * nat)) : nat :=
  fold_right (fun w n => (work w + n)%nat) O l.

Lemma work_total_app a b : work_total (a ++ b) = (work_total a + work_total b)%nat.
Proof. induction a as [|w a IH]; simpl; auto. rewrite IH. lia. Qed.

Lemma work_total_rev a : work_total (rev a) = work_total a.
Proof. induction a as [|w a IH]; simpl; auto. rewrite work_total_app, IH. simpl. lia. Qed.

Lemma work_items items ch : map (fun w : nat * ctree * nat => (snd (fst w), snd w)) items = map (fun t => (t, O)) ch ->
  work_total items = fold_right (fun x n => (ctree_nodes x + n)%nat) O ch.
Proof.
  revert ch. induction items as [|[[i t] k] items IH]; intros [|c ch] E; simpl in *; try discriminate; auto.
  inv E. rewrite (IH ch) by auto. lia.
Qed.

Lemma skipn_cons {A} (l : list A) k x : nth_error l k = Some x -> skipn k l = x :: skipn (S k) l.
Proof.
  revert k. induction l as [|y l IH]; intros [|k] H; simpl in *; try discriminate.
  - inv H. reflexivity.
  - apply IH in H. exact H.
Qed.

Lemma reads_items h items ch : Forall (item_done h) items ->
  map (fun w : nat * ctree * nat => (snd (fst w), snd w)) items = map (fun t => (t, O)) ch ->
  exists ts, Forall2 denotes ch ts /\ Forall2 (reads_node h) (map addr items) ts.
Proof.
  intros F. revert ch. induction F as [|[[i t] k] items D F IH]; intros [|c ch] E; simpl in E; try discriminate.
  - exists []. split; constructor.
  - inv E. destruct (IH ch H2) as (ts & D1 & R1). destruct D as (nt & Dn & Rn).
    cbn [skipn] in Dn. destruct c as [sq cc]. cbn [c_sequence c_children] in Dn.
    exists (nt :: ts). split; constructor; auto.
Qed.

Lemma make_tree_loop_ok : forall f stack h,
  (work_total stack <= f)%nat -> NoDup (map addr stack) -> Forall (item_ok h) stack ->
  exists h', make_tree_loop f stack h = Ok h' /\
    Forall (item_done h') stack /\
    (List.length h <= List.length h')%nat /\
    (forall i, (i < List.length h)%nat -> ~ In i (map addr stack) -> nth_error h' i = nth_error h i).
Proof.
  induction f as [|f IH]; intros stack h Lf ND F.
  - destruct stack as [|[[i [sq ch]] k] stack].
    + exists h. repeat split; auto.
    + exfalso. inv F. destruct H1 as (_ & m & E & _). cbn [c_sequence] in E.
      apply nth_lt in E. simpl in Lf. lia.
  - destruct stack as [|[[i [sq ch]] k] stack].
    { exists h. repeat split; auto. }
    inv F. destruct H1 as (So & m & Em & Eh). cbn [c_sequence] in Em.
    inv ND. unfold addr at 1 in H1. cbn [fst] in H1. cbn [make_tree_loop].
    assert (forall w, In w stack -> (addr w < List.length h)%nat) as OLD.
    { intros [[j t] kk] Hw. rewrite Forall_forall in H2. destruct (H2 _ Hw) as (_ & mm & _ & E).
      apply nth_lt in E. exact E. }
    assert (forall h1, (forall j, j <> i -> (j < List.length h)%nat -> nth_error h1 j = nth_error h j) ->
              Forall (item_ok h1) stack) as KEEP.
    { intros h1 O1. rewrite Forall_forall in *. intros [[j t] kk] Hw.
      destruct (H2 _ Hw) as (S1 & mm & E1 & E2). split; auto. exists mm. split; auto.
      rewrite O1; auto.
      - intros ->. apply H1. apply in_map_iff. exists (i, t, kk). auto.
      - apply nth_lt in E2. exact E2. }
    replace (k + 1)%nat with (S k) by lia.
    destruct (nth_error sq (S k)) as [m1|] eqn:E1.
    + (* next node of the sequence *)
      destruct (add_node_spec h i m1 m [] Eh) as (h1 & -> & L1 & P1 & C1 & O1).
      destruct (IH ((List.length h, CT sq ch, S k) :: stack) h1) as (h' & EL & FD & LL & OO).
      * simpl in Lf |- *. apply nth_lt in E1. lia.
      * cbn [map]. unfold addr at 1. cbn [fst]. constructor; auto.
        intro C. apply in_map_iff in C. destruct C as (w & Ew & Hw). apply OLD in Hw. lia.
      * constructor; [|apply KEEP; auto]. split; auto. exists m1. split; auto.
      * exists h'. split; [exact EL|]. inv FD. pose proof (nth_lt _ _ _ Eh) as Li. split; [|split].
        -- constructor; auto. destruct H4 as (nt & Dn & Rn). cbn [c_sequence c_children] in *.
           exists (NT m [nt]). cbn [c_sequence c_children]. rewrite (skipn_cons sq k m Em), (skipn_cons sq (S k) m1 E1).
           rewrite (skipn_cons sq (S k) m1 E1) in Dn. split; [constructor; auto|].
           econstructor; [|constructor; [exact Rn|constructor]].
           rewrite OO; [exact P1|lia|]. cbn [map]. unfold addr at 1. cbn [fst].
           intros [E|C]; [lia|]. apply H1. exact C.
        -- lia.
        -- intros j Lj Nj. cbn [map] in Nj. unfold addr at 1 in Nj. cbn [fst] in Nj.
           rewrite OO; [|lia|].
           ++ apply O1; [intros ->; apply Nj; left; reflexivity|exact Lj].
           ++ cbn [map]. unfold addr at 1. cbn [fst]. intros [E|C]; [lia|]. apply Nj. right. exact C.
    + (* end of the sequence: variations *)
      rewrite Eh. cbn [n_props].
      pose proof (nth_lt _ _ _ Eh) as Li.
      set (h0 := update i (mkN m []) h).
      assert (nth_error h0 i = Some (mkN m [])) as Eh0 by (apply nth_update_same; auto).
      assert (List.length h0 = List.length h) as Lh0 by apply update_length.
      inversion So as [sq' ch' Ns Fc]; subst sq' ch'.
      destruct (add_variations_spec ch h0 i m [] Eh0 Fc) as
        (h1 & items & -> & L1 & P1 & O1 & I1 & A1 & ND1 & M1).
      cbn [bind].
      assert (forall j, j <> i -> (j < List.length h)%nat -> nth_error h1 j = nth_error h j) as O1'.
      { intros j Nj Lj. rewrite O1 by lia. apply nth_update_other. auto. }
      destruct (IH (rev items ++ stack) h1) as (h' & EL & FD & LL & OO).
      * rewrite work_total_app, work_total_rev. rewrite (work_items items ch M1).
        simpl in Lf. apply nth_lt in Em. lia.
      * rewrite map_app, map_rev.
        assert (forall x, In x (rev (map addr items)) -> ~ In x (map addr stack)) as DJ.
        { intros x Hx C. apply in_rev in Hx. apply in_map_iff in Hx. destruct Hx as (w & Ew & Hw).
          rewrite Forall_forall in A1. apply A1 in Hw.
          apply in_map_iff in C. destruct C as (w2 & Ew2 & Hw2). apply OLD in Hw2. lia. }
        clear - ND1 H3 DJ. apply NoDup_rev in ND1. revert DJ. 
        induction ND1 as [|x l Nx ND IHl]; simpl; intros DJ; auto.
        constructor; [|apply IHl; intros; apply DJ; auto].
        rewrite in_app_iff. intros [C|C]; [auto|]. apply (DJ x); auto.
      * apply Forall_app. split; [|apply KEEP; auto]. apply Forall_rev. exact I1.
      * exists h'. split; [exact EL|]. apply Forall_app in FD. destruct FD as [FD1 FD2].
        apply Forall_rev in FD1. rewrite rev_involutive in FD1.
        assert (forall j, (j < List.length h)%nat -> ~ In j (map addr stack) ->
                  nth_error h' j = nth_error h1 j) as OO'.
        { intros j Lj Nj. apply OO; [lia|]. rewrite map_app, in_app_iff. intros [C|C]; [|auto].
          rewrite map_rev in C. apply in_rev in C. apply in_map_iff in C.
          destruct C as (w & Ew & Hw). rewrite Forall_forall in A1. apply A1 in Hw. lia. }
        split; [|split].
        -- constructor; auto. cbn [item_done c_sequence c_children].
           destruct (reads_items h' items ch FD1 M1) as (ts & D1 & R1).
           exists (NT m ts). split.
           ++ rewrite (skipn_cons sq k m Em).
              rewrite skipn_all2 by (apply nth_error_None; exact E1). constructor. exact D1.
           ++ econstructor; [|exact R1]. rewrite OO' by auto. rewrite P1. reflexivity.
        -- lia.
        -- intros j Lj Nj. cbn [map] in Nj. unfold addr at 1 in Nj. cbn [fst] in Nj.
           rewrite OO'; [|exact Lj|intros C; apply Nj; right; exact C]. apply O1'; [intros ->; apply Nj; left; reflexivity|exact Lj].
Qed.

Lemma good_seqs_ok t : good_tree t -> seqs_ok t.
Proof.
  induction t as [sq ch IH] using ctree_ind'. intros G. inv G. constructor; auto.
  clear - IH H3. induction IH; [constructor|]. inv H3. constructor; auto.
Qed.

Lemma make_tree_ok t : seqs_ok t ->
  exists h nt, make_tree t = Ok h /\ denotes t nt /\ reads_node h O nt.
Proof.
  intros S. destruct t as [[|m sq] ch]; [inv S; congruence|]. unfold make_tree.
  destruct (make_tree_loop_ok (ctree_nodes (CT (m :: sq) ch)) [(O, CT (m :: sq) ch, O)] [mkN m []])
    as (h' & E & F & _).
  - simpl. lia.
  - constructor; auto. constructor.
  - constructor; [|constructor]. split; auto. exists m. split; reflexivity.
  - inv F. destruct H1 as (nt & D & R). cbn [skipn c_sequence c_children] in D. eauto.
Qed.

(** * denotes is a partial bijection *)

Lemma denotes_fun t : forall nt nt', denotes t nt -> denotes t nt' -> nt = nt'.
Proof.
  induction t as [sq ch IH] using ctree_ind'.
  induction sq as [|m sq IHs]; intros nt nt' D D'; [inv D|].
  destruct sq as [|m' sq].
  - inv D. inv D'. f_equal. clear - IH H2 H3. revert ts ts0 H2 H3.
    induction IH as [|c ch Hc Hch IHc]; intros ts ts' F F'; inv F; inv F'; auto. f_equal; auto.
  - inv D. inv D'. f_equal. f_equal. auto.
Qed.

Lemma denotes_main t : forall nt, denotes t nt -> main_sequence t = first_line nt.
Proof.
  induction t as [sq ch IH] using ctree_ind'.
  induction sq as [|m sq IHs]; intros nt D; [inv D|].
  destruct sq as [|m' sq].
  - inv D. cbn [main_sequence first_line app]. f_equal. inv H2; auto. inv IH. auto.
  - inversion D as [|? ? ? ? ? D2]; subst. cbn [main_sequence first_line app]. f_equal.
    rewrite <- (IHs _ D2). reflexivity.
Qed.

Lemma denotes_total t : seqs_ok t -> exists nt, denotes t nt.
Proof.
  intros S. destruct (make_tree_ok t S) as (h & nt & _ & D & _). eauto.
Qed.

(** * make_coarse_game_tree *)

Definition citem_ok (h : gheap) (w : nat * ntree) : Prop := nth_error h (fst w) = Some (mkGO [] []).

Definition citem_done (h : gheap) (w : nat * ntree) : Prop :=
  exists ct, denotes ct (snd w) /\ compact ct /\ reads_coarse h (fst w) ct.

Lemma add_subtrees_spec : forall ks h p sq0 ks0,
  nth_error h p = Some (mkGO sq0 ks0) ->
  exists h1 items, add_subtrees h p ks = (h1, items) /\
    (List.length h <= List.length h1)%nat /\
    nth_error h1 p = Some (mkGO sq0 (ks0 ++ map fst items)) /\
    (forall i, i <> p -> (i < List.length h)%nat -> nth_error h1 i = nth_error h i) /\
    Forall (citem_ok h1) items /\
    Forall (fun w => (List.length h <= fst w)%nat) items /\ NoDup (map fst items) /\
    map snd items = ks.
Proof.
  induction ks as [|k ks IH]; intros h p sq0 ks0 H; cbn [add_subtrees].
  - exists h, []. simpl. rewrite app_nil_r. repeat split; auto; constructor.
  - rewrite (nth_app_old h [mkGO [] []] p _ H). cbn [g_seq g_kids].
    pose proof (nth_lt _ _ _ H) as Lp.
    set (h1 := update p (mkGO sq0 (ks0 ++ [List.length h])) (h ++ [mkGO [] []])).
    assert (List.length h1 = S (List.length h)) as L1.
    { unfold h1. rewrite update_length, app_length. simpl. lia. }
    assert (nth_error h1 p = Some (mkGO sq0 (ks0 ++ [List.length h]))) as P1.
    { apply nth_update_same. rewrite app_length. simpl. lia. }
    assert (nth_error h1 (List.length h) = Some (mkGO [] [])) as C1.
    { unfold h1. rewrite nth_update_other by lia. rewrite nth_error_app2, Nat.sub_diag by lia. reflexivity. }
    assert (forall i, i <> p -> (i < List.length h)%nat -> nth_error h1 i = nth_error h i) as O1.
    { intros i N Li. unfold h1. rewrite nth_update_other by lia. apply nth_error_app1. lia. }
    destruct (IH h1 p sq0 _ P1) as (h2 & items & -> & L2 & P2 & O2 & I2 & A2 & ND & M2).
    eexists _, _. split; [reflexivity|]. cbn [map fst snd]. repeat split.
    + lia.
    + rewrite P2, <- app_assoc. reflexivity.
    + intros i N Li. rewrite O2 by lia. apply O1; auto.
    + constructor; auto. unfold citem_ok. cbn [fst]. rewrite O2 by lia. exact C1.
    + constructor; [simpl; lia|]. eapply Forall_impl; [|exact A2]. simpl. intros; lia.
    + constructor; auto. intro C. apply in_map_iff in C. destruct C as (w & Ew & Hw).
      rewrite Forall_forall in A2. apply A2 in Hw. lia.
    + rewrite M2. reflexivity.
Qed.

Lemma chain_spec t s ks : chain t = (s, ks) ->
  s <> [] /\ List.length ks <> 1%nat /\
  (forall cs, Forall2 denotes cs ks -> denotes (CT s cs) t) /\
  (fold_right (fun x n => (ntree_size x + n)%nat) O ks < ntree_size t)%nat.
Proof.
  revert s ks. induction t as [m kids IH] using ntree_ind'. intros s ks E. cbn [chain] in E.
  assert (forall l, l = kids -> List.length l <> 1%nat -> ([m], l) = (s, ks) ->
     s <> [] /\ List.length ks <> 1%nat /\ (forall cs, Forall2 denotes cs ks -> denotes (CT s cs) (NT m kids)) /\
     (fold_right (fun x n => (ntree_size x + n)%nat) O ks < ntree_size (NT m kids))%nat) as B.
  { intros l -> L E'. inv E'. split; [discriminate|]. split; [exact L|].
    split; [intros cs F; constructor; exact F|simpl; lia]. }
  destruct kids as [|k [|k2 kids]].
  - apply (B []); auto.
  - destruct (chain k) as [s1 k1] eqn:Ek. inv E. inv IH.
    destruct (H1 _ _ Ek) as (N1 & L1 & D1 & S1). 
    split; [discriminate|]. split; [exact L1|]. split.
    + intros cs F. destruct s1 as [|m1 s1]; [congruence|]. constructor. auto.
    + simpl in *. lia.
  - apply (B (k :: k2 :: kids)); auto. simpl. lia.
Qed.

Definition cwork (l : list (nat * ntree)) : nat :=
  fold_right (fun w n => (ntree_size (snd w) + n)%nat) O l.

Lemma cwork_app a b : cwork (a ++ b) = (cwork a + cwork b)%nat.
Proof. induction a as [|w a IH]; simpl; auto. rewrite IH. lia. Qed.

Lemma cwork_rev a : cwork (rev a) = cwork a.
Proof. induction a as [|w a IH]; simpl; auto. rewrite cwork_app, IH. simpl. lia. Qed.

Lemma cwork_items items : cwork items = fold_right (fun x n => (ntree_size x + n)%nat) O (map snd items).
Proof. induction items as [|w l IH]; simpl; auto. Qed.

Lemma cdone_items h items : Forall (citem_done h) items ->
  exists cs, Forall2 denotes cs (map snd items) /\ Forall compact cs /\
    Forall2 (reads_coarse h) (map fst items) cs.
Proof.
  induction 1 as [|w items (ct & D & C & R) F (cs & Ds & Cs & Rs)].
  - exists []. repeat split; constructor.
  - exists (ct :: cs). repeat split; constructor; auto.
Qed.

Lemma make_coarse_loop_ok : forall f stack h,
  (cwork stack <= f)%nat -> NoDup (map fst stack) -> Forall (citem_ok h) stack ->
  exists h', make_coarse_loop f stack h = Ok h' /\
    Forall (citem_done h') stack /\
    (List.length h <= List.length h')%nat /\
    (forall i, (i < List.length h)%nat -> ~ In i (map fst stack) -> nth_error h' i = nth_error h i).
Proof.
  induction f as [|f IH]; intros stack h Lf ND F.
  - destruct stack as [|[i t] stack].
    + exists h. repeat split; auto.
    + exfalso. destruct t. simpl in Lf. lia.
  - destruct stack as [|[i t] stack].
    { exists h. repeat split; auto. }
    inv F. unfold citem_ok in H1. cbn [fst] in H1. inv ND. cbn [make_coarse_loop fst] in *.
    assert (forall w, In w stack -> (fst w < List.length h)%nat) as OLD.
    { intros w Hw. rewrite Forall_forall in H2. apply H2 in Hw. apply nth_lt in Hw. exact Hw. }
    destruct (chain t) as [s ks] eqn:Ec. apply chain_spec in Ec. destruct Ec as (Ns & Lk & Dk & Sk).
    rewrite H1. cbn [g_seq g_kids app].
    pose proof (nth_lt _ _ _ H1) as Li.
    set (h0 := update i (mkGO s []) h).
    assert (nth_error h0 i = Some (mkGO s [])) as Eh0 by (apply nth_update_same; auto).
    assert (List.length h0 = List.length h) as Lh0 by apply update_length.
    destruct (add_subtrees_spec ks h0 i s [] Eh0) as (h1 & items & -> & L1 & P1 & O1 & I1 & A1 & ND1 & M1).
    assert (forall j, j <> i -> (j < List.length h)%nat -> nth_error h1 j = nth_error h j) as O1'.
    { intros j Nj Lj. rewrite O1 by lia. apply nth_update_other. auto. }
    destruct (IH (rev items ++ stack) h1) as (h' & EL & FD & LL & OO).
    + rewrite cwork_app, cwork_rev, cwork_items, M1. simpl in Lf. lia.
    + rewrite map_app, map_rev.
      assert (forall x, In x (rev (map fst items)) -> ~ In x (map fst stack)) as DJ.
      { intros x Hx C. apply in_rev in Hx. apply in_map_iff in Hx. destruct Hx as (w & Ew & Hw).
        rewrite Forall_forall in A1. apply A1 in Hw.
        apply in_map_iff in C. destruct C as (w2 & Ew2 & Hw2). apply OLD in Hw2. lia. }
      clear - ND1 H4 DJ. apply NoDup_rev in ND1. revert DJ.
      induction ND1 as [|x l Nx ND IHl]; simpl; intros DJ; auto.
      constructor; [|apply IHl; intros; apply DJ; auto].
      rewrite in_app_iff. intros [C|C]; [auto|]. apply (DJ x); auto.
    + apply Forall_app. split; [apply Forall_rev; exact I1|].
      rewrite Forall_forall in *. intros w Hw. unfold citem_ok in *.
      rewrite O1'; [apply H2; auto| |apply OLD; auto].
      intros E. apply H3. rewrite <- E. apply in_map. exact Hw.
    + exists h'. split; [exact EL|]. apply Forall_app in FD. destruct FD as [FD1 FD2].
      apply Forall_rev in FD1. rewrite rev_involutive in FD1.
      assert (forall j, (j < List.length h)%nat -> ~ In j (map fst stack) ->
                nth_error h' j = nth_error h1 j) as OO'.
      { intros j Lj Nj. apply OO; [lia|]. rewrite map_app, in_app_iff. intros [C|C]; [|auto].
        rewrite map_rev in C. apply in_rev in C. apply in_map_iff in C.
        destruct C as (w & Ew & Hw). rewrite Forall_forall in A1. apply A1 in Hw. lia. }
      split; [|split].
      * constructor; auto. destruct (cdone_items h' items FD1) as (cs & D1 & C1 & R1).
        rewrite M1 in D1. exists (CT s cs). cbn [fst snd]. split; [auto|]. split.
        -- constructor; auto. rewrite (Forall2_length _ _ _ D1). exact Lk.
        -- econstructor; [|exact R1]. rewrite OO' by auto. rewrite P1. reflexivity.
      * lia.
      * intros j Lj Nj. cbn [map fst] in Nj. rewrite OO' by (simpl in *; tauto).
        apply O1'; auto. simpl in *. intuition congruence.
Qed.

Lemma make_coarse_ok t : exists h ct, make_coarse_game_tree t = Ok h /\
  denotes ct t /\ compact ct /\ reads_coarse h O ct.
Proof.
  unfold make_coarse_game_tree.
  destruct (make_coarse_loop_ok (ntree_size t) [(O, t)] [mkGO [] []]) as (h & E & F & _).
  - simpl. lia.
  - constructor; auto. constructor.
  - constructor; [reflexivity|constructor].
  - inv F. destruct H1 as (ct & D & C & R). exists h, ct. auto.
Qed.

Lemma Forall2_len1 {A B} (R : A -> B -> Prop) l x : Forall2 R l [x] -> List.length l = 1%nat.
Proof. intros F. rewrite (Forall2_length _ _ _ F). reflexivity. Qed.

Lemma denotes_compact_inj t : forall t' nt, denotes t nt -> denotes t' nt -> compact t -> compact t' -> t = t'.
Proof.
  induction t as [sq ch IH] using ctree_ind'.
  induction sq as [|m sq IHs]; intros [sq' ch'] nt D D' C C'; [inv D|].
  inversion C as [? ? Ns Ls Cs]; subst. inversion C' as [? ? Ns' Ls' Cs']; subst.
  destruct sq as [|m1 sq].
  - inversion D as [? ? ts F|]; subst. inversion D' as [? ? ts' F'|? ? ? ? ? D2]; subst.
    + f_equal. clear - IH F F' Cs Cs'. revert ch' ts F F' Cs'.
      induction IH as [|c ch Hc Hch IHc]; intros ch' ts F F' Cs'; inv F; inv F'; auto.
      inv Cs. inv Cs'. f_equal; eauto.
    + exfalso. apply Forall2_len1 in F. auto.
  - inversion D as [|? ? ? ? ? D2]; subst. inversion D' as [? ? ts' F'|? m2 sq2 ? ? D3]; subst.
    + exfalso. apply Forall2_len1 in F'. auto.
    + assert (CT (m1 :: sq) ch = CT (m2 :: sq2) ch') as E.
      { eapply IHs; eauto; constructor; auto; discriminate. }
      inv E. reflexivity.
Qed.

Lemma compact_seqs_ok t : compact t -> seqs_ok t.
Proof.
  induction t as [sq ch IH] using ctree_ind'. intros G. inv G. constructor; auto.
  clear - IH H3. induction IH; [constructor|]. inv H3. constructor; auto.
Qed.

Lemma C15_round_proof t : compact t ->
  exists h nt h' , make_tree t = Ok h /\ reads_node h O nt /\
    make_coarse_game_tree nt = Ok h' /\ reads_coarse h' O t.
Proof.
  intros C. destruct (make_tree_ok t (compact_seqs_ok t C)) as (h & nt & E & D & R).
  destruct (make_coarse_ok nt) as (h' & ct & E' & D' & C' & R').
  exists h, nt, h'. repeat split; auto.
  rewrite (denotes_compact_inj t ct nt D D' C C'). exact R'.
Qed.

(** A heap address reads as at most one tree. *)
Lemma reads_node_fun h : forall i t, reads_node h i t -> forall t', reads_node h i t' -> t = t'.
Proof.
  intros i t. revert i. induction t as [m ks IH] using ntree_ind'. intros i R t' R'.
  inversion R as [? ? ks1 ts1 N1 F1]; subst. inversion R' as [? ? ks2 ts2 N2 F2]; subst.
  rewrite N1 in N2. injection N2 as -> ->. f_equal.
  clear - IH F1 F2. revert ks2 ts2 F1 F2.
  induction IH as [|c l Hc Hl IHl]; intros ks2 ts2 F1 F2; inversion F1; subst; inversion F2; subst; auto.
  f_equal; eauto.
Qed.
