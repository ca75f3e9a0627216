(** The eager world a lazy one stands for: expanding doesn't change it, loading commutes
    with it (C68). *)
From Verif Require Import Base Bytes PyStr Dict SgfGrammarModel SgfGrammarSpec SgfGrammarProofs SgfTreeConvModel SgfTreeConvProofs
  SgfPropsModel SgfTreeModel SgfTreeSpec SgfTreeProofs SgfLazyModel SgfLazySpec SgfLazyBuildProofs SgfLazyLoadProofs.

Lemma imap_nth {A B} (f : nat -> A -> B) l : forall i n, nth_error (imap f i l) n = option_map (f (i + n)%nat) (nth_error l n).
Proof.
  induction l as [|x l IH]; intros i [|n]; cbn; auto; [rewrite Nat.add_0_r; reflexivity|].
  rewrite IH. replace (S i + n)%nat with (i + S n)%nat by lia. reflexivity.
Qed.
Lemma imap_length {A B} (f : nat -> A -> B) l i : List.length (imap f i l) = List.length l.
Proof. revert i. induction l; intros; cbn; auto. Qed.

Lemma nth_ext' {A} (a b : list A) : (forall n, nth_error a n = nth_error b n) -> a = b.
Proof.
  revert b. induction a as [|x a IH]; intros [|y b] H; auto.
  - specialize (H O). discriminate.
  - specialize (H O). discriminate.
  - pose proof (H O) as H0. injection H0 as ->. f_equal. apply IH. intros n. apply (H (S n)).
Qed.

Lemma world_ext w w' : (forall n, node_at w n = node_at w' n) -> w_games w = w_games w' -> w = w'.
Proof. intros N G. destruct w, w'. cbn in *. f_equal; auto. apply nth_ext'. exact N. Qed.

Definition as_game (x : lgame) : game := mkGame (lg_root x) (lg_pres x).
Definition forced_node (lw : lworld) (n : nat) (s : slot) : tnode :=
  mkT (s_owner s) (fst (final_links lw n s)) (snd (final_links lw n s)) (s_props s).

Lemma forced_at lw n : node_at (forced lw) n = option_map (forced_node lw n) (slot_at lw n).
Proof. unfold node_at, forced. cbn [w_nodes]. rewrite imap_nth. reflexivity. Qed.
Lemma view_at lw n : node_at (view lw) n = option_map view_node (slot_at lw n).
Proof. unfold node_at, view. cbn [w_nodes]. rewrite nth_error_map. reflexivity. Qed.
Lemma forced_game lw g : game_at (forced lw) g = option_map as_game (lgame_at lw g).
Proof. unfold game_at, forced. cbn [w_games]. rewrite nth_error_map. reflexivity. Qed.
Lemma view_game lw g : game_at (view lw) g = option_map as_game (lgame_at lw g).
Proof. unfold game_at, view. cbn [w_games]. rewrite nth_error_map. reflexivity. Qed.
Lemma forced_length lw : List.length (w_nodes (forced lw)) = List.length (lw_slots lw).
Proof. unfold forced. cbn [w_nodes]. apply imap_length. Qed.
Lemma view_length lw : List.length (w_nodes (view lw)) = List.length (lw_slots lw).
Proof. unfold view. cbn [w_nodes]. apply map_length. Qed.
Lemma forced_games lw : w_games (forced lw) = w_games (view lw).
Proof. reflexivity. Qed.

(** ** The invariant *)

Record linv (lw : lworld) : Prop := mkLinv {
  li_owner : forall n s, slot_at lw n = Some s -> exists x, lgame_at lw (s_owner s) = Some x;
  li_lazy : forall g x t, lgame_at lw g = Some x -> lg_coarse x = Some t ->
    lseqs t /\ NoDup (llabels t) /\ (exists sq, lc_sequence t = lg_root x :: sq) /\
    (forall n, In n (llabels t) <-> exists s, slot_at lw n = Some s /\ s_owner s = g) /\
    (forall n s, slot_at lw n = Some s -> s_owner s = g -> s_node s = if Nat.eqb n (lg_root x) then Some (None, []) else None);
  li_eager : forall n s x, slot_at lw n = Some s -> lgame_at lw (s_owner s) = Some x -> lg_coarse x = None -> s_node s <> None
}.

Lemma assoc_in {A} i (y : A) l : NoDup (map fst l) -> In (i, y) l -> assoc i l = Some y.
Proof.
  induction l as [|[j z] l IH]; cbn [map fst assoc]; intros N I; [contradiction|]. inversion N as [|? ? N1 N2]; subst.
  destruct I as [E|I]; [injection E as -> ->; rewrite Nat.eqb_refl; reflexivity|].
  destruct (Nat.eqb_spec i j) as [->|_]; auto. contradiction N1. apply in_map_iff. exists (j, y). auto.
Qed.
Lemma assoc_some {A} i (l : list (nat * A)) : In i (map fst l) -> exists y, assoc i l = Some y /\ In (i, y) l.
Proof.
  induction l as [|[j z] l IH]; cbn [map fst assoc]; intros I; [contradiction|].
  destruct (Nat.eqb_spec i j) as [->|N]; [exists z; split; auto; left; auto|].
  destruct I as [->|I]; [congruence|]. destruct (IH I) as (y & E & I'). exists y. split; auto. right. auto.
Qed.
Lemma assoc_none {A} i (l : list (nat * A)) : ~ In i (map fst l) -> assoc i l = None.
Proof.
  induction l as [|[j z] l IH]; cbn [map fst assoc]; intros I; auto.
  destruct (Nat.eqb_spec i j) as [->|N]; [contradiction I; left; auto|]. apply IH. intros I'. apply I. right. auto.
Qed.

(** ** Expanding *)

Lemma lgame_update lw g x y h : lgame_at lw g = Some y ->
  nth_error (update g x (lw_games lw)) h = if Nat.eqb g h then Some x else lgame_at lw h.
Proof. intros E. apply nth_update. apply nth_error_Some. unfold lgame_at in E. congruence. Qed.

Lemma lctree_nodes_labels t : lctree_nodes t = List.length (llabels t).
Proof.
  induction t as [sq ch IH] using lctree_ind'. cbn [lctree_nodes llabels]. rewrite app_length. f_equal.
  induction IH as [|c ch H _ IHc]; auto. cbn. rewrite app_length, H, IHc. reflexivity.
Qed.

Lemma bodies l l' n s : map body l' = map body l -> nth_error l n = Some s ->
  exists s', nth_error l' n = Some s' /\ s_owner s' = s_owner s /\ s_props s' = s_props s.
Proof.
  intros E H. assert (nth_error (map body l') n = Some (body s)) as H' by (rewrite E, nth_error_map, H; reflexivity).
  rewrite nth_error_map in H'. destruct (nth_error l' n) as [s'|]; [|discriminate]. exists s'. injection H' as E1 E2. auto.
Qed.

Lemma expand_ok lw g : linv lw -> linv (expand lw g) /\ forced (expand lw g) = forced lw /\
  (forall x, lgame_at (expand lw g) g = Some x -> lg_coarse x = None) /\
  (forall h, option_map as_game (lgame_at (expand lw g) h) = option_map as_game (lgame_at lw h)) /\
  (forall h, h <> g -> lgame_at (expand lw g) h = lgame_at lw h) /\
  (forall n s, slot_at lw n = Some s -> exists s', slot_at (expand lw g) n = Some s' /\ s_owner s' = s_owner s /\
     (s_node s <> None -> s_node s' <> None)) /\
  List.length (lw_slots (expand lw g)) = List.length (lw_slots lw).
Proof.
  intros I. unfold expand. destruct (lgame_at lw g) as [x|] eqn:Eg.
  2: { split; auto. split; auto. split; [congruence|]. repeat split; auto. intros n s H. exists s. auto. }
  destruct (lg_coarse x) as [t|] eqn:Ec.
  2: { split; auto. split; auto. split; [congruence|]. repeat split; auto. intros n s H. exists s. auto. }
  destruct (li_lazy _ I g x t Eg Ec) as (LS & ND & (sq & ES) & OW & BO).
  destruct t as [sq0 ch]. cbn [lc_sequence] in ES. subst sq0. set (r := lg_root x) in *. set (t := LC (r :: sq) ch) in *.
  assert (exists sr, slot_at lw r = Some sr /\ s_owner sr = g) as (sr & Er & Or) by (apply OW; left; auto).
  assert (nd (lw_slots lw) r = Some (None, [])) as Nr.
  { unfold nd. fold (slot_at lw r). rewrite Er, (BO _ _ Er Or), Nat.eqb_refl. reflexivity. }
  destruct (loop_ok (lctree_nodes t) [(r, t, O)] (lw_slots lw)) as (B & Lin & Lout).
  { constructor; [|constructor]. exists None, sq. auto. }
  { unfold items_labels. cbn [flat_map sub skipn t]. rewrite app_nil_r. exact ND. }
  { unfold items_labels. cbn [flat_map sub skipn t]. rewrite app_nil_r. apply Forall_forall. intros i H. apply OW in H.
    destruct H as (s & H & _). apply nth_error_Some. unfold slot_at in H. congruence. }
  { unfold items_nodes. cbn [map sub skipn t list_sum fold_right]. fold t. lia. }
  set (l' := make_tree_loop (lctree_nodes t) [(r, t, O)] (lw_slots lw)) in *. cbv zeta in B, Lin, Lout.
  assert (forall i y, In (i, y) (links None t) -> nd l' i = Some y) as Lin'.
  { intros i y H. apply (Lin (r, t, O) (i, y)); [left; auto|]. cbn [fst sub skipn t]. rewrite (node_of_nd _ _ _ Nr). exact H. }
  assert (forall i, ~ In i (llabels t) -> nd l' i = nd (lw_slots lw) i) as Lout'.
  { intros i H. apply Lout. unfold items_labels. cbn [flat_map sub skipn t]. rewrite app_nil_r. exact H. }
  clear Lin Lout. pose proof (links_keys t None LS) as LK.
  assert (forall n s, slot_at lw n = Some s -> exists s', nth_error l' n = Some s' /\ s_owner s' = s_owner s /\ s_props s' = s_props s /\
    (s_owner s = g -> exists y, assoc n (links None t) = Some y /\ s_node s' = Some y) /\
    (s_owner s <> g -> s_node s' = s_node s)) as SL.
  { intros n s E. destruct (bodies _ _ _ _ B E) as (s' & E' & O' & P'). exists s'. split; auto. split; auto. split; auto. split.
    - intros Og. assert (In n (llabels t)) as Il by (apply OW; eauto). rewrite <- LK in Il. destruct (assoc_some _ _ Il) as (y & A & Iy).
      exists y. split; auto. apply Lin' in Iy. unfold nd in Iy. rewrite E' in Iy. exact Iy.
    - intros Og. assert (~ In n (llabels t)) as Il. { intros H. apply OW in H. destruct H as (s2 & E2 & O2). congruence. }
      apply Lout' in Il. unfold nd in Il. rewrite E' in Il. unfold slot_at in E. rewrite E in Il. exact Il. }
  assert (List.length l' = List.length (lw_slots lw)) as LE by (rewrite <- (map_length body), B, map_length; reflexivity).
  assert (forall n s', nth_error l' n = Some s' -> exists s, slot_at lw n = Some s) as SL'.
  { intros n s' E. destruct (slot_at lw n) as [s|] eqn:E2; eauto. exfalso. apply nth_error_None in E2.
    assert (nth_error l' n <> None) as N by congruence. apply nth_error_Some in N. lia. }
  assert (forall h, nth_error (update g (mkLG r (lg_pres x) None) (lw_games lw)) h =
    if Nat.eqb g h then Some (mkLG r (lg_pres x) None) else lgame_at lw h) as GU by (intros h; eapply lgame_update; eauto).
  split; [|split; [|split; [|split; [|split; [|split]]]]]; auto.
  - constructor; unfold slot_at, lgame_at; cbn [lw_slots lw_games].
    + intros n s' E. destruct (SL' _ _ E) as (s & Es). destruct (SL _ _ Es) as (s2 & E2 & O2 & _). rewrite E in E2. injection E2 as <-.
      rewrite GU. destruct (Nat.eqb g (s_owner s')); eauto. rewrite O2. eapply li_owner; eauto.
    + intros h y t' Eh Ec'. rewrite GU in Eh. destruct (Nat.eqb_spec g h) as [->|N]; [injection Eh as <-; discriminate|].
      destruct (li_lazy _ I _ _ _ Eh Ec') as (A1 & A2 & A3 & A4 & A5). split; auto. split; auto. split; auto. split.
      * intros n. rewrite A4. split; intros (s & Es & Os).
        -- destruct (SL _ _ Es) as (s2 & E2 & O2 & _). exists s2. split; auto. congruence.
        -- destruct (SL' _ _ Es) as (s1 & E1). destruct (SL _ _ E1) as (s2 & E2 & O2 & _). exists s1. split; auto. congruence.
      * intros n s' Es Os. destruct (SL' _ _ Es) as (s1 & E1). destruct (SL _ _ E1) as (s2 & E2 & O2 & _ & _ & Ne).
        rewrite Es in E2. injection E2 as <-. rewrite Ne by congruence. apply A5; auto. congruence.
    + intros n s' y Es Eh Ec'. destruct (SL' _ _ Es) as (s1 & E1). destruct (SL _ _ E1) as (s2 & E2 & O2 & _ & Ye & Ne).
      rewrite Es in E2. injection E2 as <-. rewrite GU in Eh. destruct (Nat.eqb_spec g (s_owner s')) as [Eg'|N].
      * destruct (Ye ltac:(congruence)) as (z & _ & ->). discriminate.
      * rewrite Ne by congruence. rewrite O2 in Eh. eapply li_eager; eauto.
  - apply world_ext.
    + intros n. rewrite !forced_at. unfold slot_at at 1. cbn [lw_slots].
      destruct (slot_at lw n) as [s|] eqn:Es.
      * destruct (SL _ _ Es) as (s' & E' & O' & P' & Ye & Ne). rewrite E'. cbn [option_map]. f_equal. unfold forced_node.
        rewrite O', P'. 
        assert (final_links {| lw_slots := l'; lw_games := update g {| lg_root := r; lg_pres := lg_pres x; lg_coarse := None |} (lw_games lw) |} n s' = final_links lw n s) as ->; [|reflexivity].
        unfold final_links. unfold lgame_at at 1. cbn [lw_games]. rewrite GU, O'.
        destruct (Nat.eqb_spec g (s_owner s)) as [Eo|N].
        -- cbn [lg_coarse]. rewrite <- Eo, Eg, Ec. destruct (Ye (eq_sym Eo)) as (y & A & ->). rewrite A. reflexivity.
        -- rewrite Ne by congruence. reflexivity.
      * destruct (nth_error l' n) as [s'|] eqn:E'; [|reflexivity]. destruct (SL' _ _ E'). congruence.
    + apply nth_ext'. intros h. change (game_at (forced (mkLW l' (update g (mkLG r (lg_pres x) None) (lw_games lw)))) h = game_at (forced lw) h).
      rewrite !forced_game. unfold lgame_at at 1. cbn [lw_games]. rewrite GU. destruct (Nat.eqb_spec g h) as [<-|N]; auto. rewrite Eg. reflexivity.
  - intros y Ey. unfold lgame_at in Ey. cbn [lw_games] in Ey. rewrite GU, Nat.eqb_refl in Ey. injection Ey as <-. reflexivity.
  - intros h. unfold lgame_at at 1. cbn [lw_games]. rewrite GU. destruct (Nat.eqb_spec g h) as [<-|N]; auto. rewrite Eg. reflexivity.
  - intros h N. unfold lgame_at at 1. cbn [lw_games]. rewrite GU. destruct (Nat.eqb_spec g h); congruence.
  - intros n s Es. destruct (SL _ _ Es) as (s' & E' & O' & P' & Ye & Ne). exists s'. split; auto. split; auto. intros B0.
    destruct (Nat.eq_dec (s_owner s) g) as [E|E]; [destruct (Ye E) as (y & _ & ->); discriminate|rewrite Ne; auto].
Qed.

(** A game is built in [lw]. *)
Definition built (lw : lworld) (g : nat) : Prop := exists x, lgame_at lw g = Some x /\ lg_coarse x = None.

Lemma touch_ok lw n : linv lw -> linv (touch lw n) /\ forced (touch lw n) = forced lw /\
  (forall s, slot_at lw n = Some s -> s_node s <> None -> built (touch lw n) (s_owner s)) /\
  (forall h, option_map as_game (lgame_at (touch lw n) h) = option_map as_game (lgame_at lw h)) /\
  (forall h, lgame_at (touch lw n) h = lgame_at lw h \/ built (touch lw n) h) /\
  (forall m s, slot_at lw m = Some s -> exists s', slot_at (touch lw n) m = Some s' /\ s_owner s' = s_owner s /\
     (s_node s <> None -> s_node s' <> None)) /\
  List.length (lw_slots (touch lw n)) = List.length (lw_slots lw).
Proof.
  intros I. unfold touch. destruct (slot_at lw n) as [s|] eqn:Es.
  2: { split; auto. split; auto. split; [congruence|]. split; auto. split; auto. split; eauto. }
  destruct (li_owner _ I _ _ Es) as (x & Ex). rewrite Ex.
  destruct (Nat.eqb_spec (lg_root x) n) as [E|N].
  - destruct (expand_ok lw (s_owner s) I) as (A1 & A2 & A3 & A4 & A5 & A6 & A7).
    assert (built (expand lw (s_owner s)) (s_owner s)) as Bu.
    { pose proof (A4 (s_owner s)) as E4. rewrite Ex in E4. destruct (lgame_at (expand lw (s_owner s)) (s_owner s)) as [y|] eqn:Ey; [|discriminate].
      exists y. split; auto. }
    split; auto. split; auto. split; [intros s' E' _; injection E' as <-; exact Bu|]. split; auto. split.
    + intros h. destruct (Nat.eq_dec h (s_owner s)) as [->|Nh]; [right; auto|left; auto].
    + split; eauto.
  - split; auto. split; auto. split.
    + intros s' E' B. injection E' as <-. exists x. split; auto. destruct (lg_coarse x) as [t|] eqn:Ec; auto. exfalso.
      destruct (li_lazy _ I _ _ _ Ex Ec) as (_ & _ & _ & _ & BO). rewrite (BO _ _ Es eq_refl) in B.
      destruct (Nat.eqb_spec n (lg_root x)); congruence.
    + split; auto. split; auto. split; eauto.
Qed.

(** ** Loading *)

Lemma tl_length {A} (l : list A) : List.length (tl l) = (List.length l - 1)%nat.
Proof. destruct l; cbn; lia. Qed.

Lemma combine_nth {A B} (a : list A) (b : list B) j x y : nth_error a j = Some x -> nth_error b j = Some y ->
  nth_error (combine a b) j = Some (x, y).
Proof.
  revert a b. induction j as [|j IH]; intros [|a0 a] [|b0 b]; cbn; intros E1 E2; try discriminate; [congruence|]. apply IH; auto.
Qed.

Lemma load_ok lw t m sq ch size e : linv lw -> t = CT (m :: sq) ch -> seqs_ok t ->
  let root := List.length (lw_slots lw) in
  let g := List.length (lw_games lw) in
  let lw1 := mkLW (lw_slots lw ++ mkSlot g m (Some (None, [])) :: map (fun m' => mkSlot g m' None) (tl (maps_of t)))
                  (lw_games lw ++ [mkLG root (new_presenter size e) (Some (fst (number t root)))]) in
  linv lw1 /\
  forall ks, ntree_of t = NT m ks ->
  forced lw1 = fold_left (fun w' k => load_below k (List.length (w_nodes (forced lw))) w') ks (alloc_game (forced lw) size e m).
Proof.
  intros I Et S root g lw1. pose proof (numbered_all _ S) as NB. set (lt := fst (number t root)) in *.
  pose proof (nb_keys _ NB root) as KE. pose proof (nb_seqs _ NB root) as LS. fold lt in KE, LS.
  pose proof (nb_maps _ NB) as MA. set (N := nsize (ntree_of t)) in *.
  assert (maps_of t = m :: tl (maps_of t)) as MT by (subst t; reflexivity).
  assert (0 < N)%nat as N0 by (rewrite <- MA, MT; cbn; lia).
  assert (exists sq', lc_sequence lt = root :: sq') as HD.
  { unfold lt. subst t. rewrite number_eq. cbn [fst lc_sequence List.length seq]. eauto. }
  assert (forall h, lgame_at lw1 h = if Nat.eqb h g then Some (mkLG root (new_presenter size e) (Some lt)) else lgame_at lw h) as GA.
  { intros h. unfold lgame_at, lw1. cbn [lw_games]. apply nth_snoc. }
  assert (forall n, (n < root)%nat -> slot_at lw1 n = slot_at lw n) as SO.
  { intros n H. unfold slot_at, lw1. cbn [lw_slots]. apply nth_error_app1. exact H. }
  assert (forall j, slot_at lw1 (root + j) =
    option_map (fun m' => mkSlot g m' (if Nat.eqb j 0 then Some (None, []) else None)) (nth_error (maps_of t) j)) as SN.
  { intros j. unfold slot_at, lw1. cbn [lw_slots]. rewrite nth_error_app2 by (fold root; lia). fold root.
    replace (root + j - root)%nat with j by lia. rewrite MT. destruct j as [|j]; [reflexivity|]. cbn [nth_error Nat.eqb]. apply nth_error_map. }
  assert (forall n s, slot_at lw1 n = Some s -> (n < root)%nat /\ slot_at lw n = Some s \/
    exists j, n = (root + j)%nat /\ (j < N)%nat /\ exists m', nth_error (maps_of t) j = Some m' /\ s = mkSlot g m' (if Nat.eqb j 0 then Some (None, []) else None)) as CASES.
  { intros n s E. destruct (Nat.lt_ge_cases n root) as [H|H].
    - left. split; auto. rewrite <- (SO _ H). exact E.
    - right. exists (n - root)%nat. assert (n = (root + (n - root))%nat) as En by lia. split; auto. rewrite En, SN in E.
      destruct (nth_error (maps_of t) (n - root)) as [m'|] eqn:Em; [|discriminate]. injection E as <-. split; [|eauto].
      rewrite <- MA. apply nth_error_Some. congruence. }
  assert (forall n s, slot_at lw n = Some s -> (n < root)%nat /\ (s_owner s < g)%nat) as OLD.
  { intros n s E. split; [apply nth_error_Some; unfold slot_at in E; congruence|]. destruct (li_owner _ I _ _ E) as (x & Ex).
    apply nth_error_Some. unfold lgame_at in Ex. congruence. }
  split.
  - constructor.
    + intros n s E. rewrite GA. destruct (CASES _ _ E) as [[H E']|(j & -> & Hj & m' & Em & ->)].
      * destruct (Nat.eqb (s_owner s) g); eauto. eapply li_owner; eauto.
      * cbn [s_owner]. rewrite Nat.eqb_refl. eauto.
    + intros h x t' Eh Ec. rewrite GA in Eh. destruct (Nat.eqb_spec h g) as [->|Nh].
      * injection Eh as <-. cbn [lg_coarse lg_root] in *. injection Ec as <-. split; auto. split; [rewrite KE; apply seq_NoDup|]. split; auto. split.
        -- intros n. rewrite KE, in_seq. split.
           ++ intros H. assert (exists m', nth_error (maps_of t) (n - root) = Some m') as (m' & Em).
              { destruct (nth_error (maps_of t) (n - root)) eqn:X; eauto. apply nth_error_None in X. lia. }
              exists (mkSlot g m' (if Nat.eqb (n - root) 0 then Some (None, []) else None)). split; [|reflexivity].
              replace n with (root + (n - root))%nat at 1 by lia. rewrite SN, Em. reflexivity.
           ++ intros (s & Es & Os). destruct (CASES _ _ Es) as [[H E']|(j & -> & Hj & _)]; [|lia]. destruct (OLD _ _ E'). lia.
        -- intros n s Es Os. destruct (CASES _ _ Es) as [[H E']|(j & -> & Hj & m' & Em & ->)]; [destruct (OLD _ _ E'); lia|]. cbn [s_node].
           destruct (Nat.eqb_spec j 0), (Nat.eqb_spec (root + j) root); auto; lia.
      * destruct (li_lazy _ I _ _ _ Eh Ec) as (A1 & A2 & A3 & A4 & A5). split; auto. split; auto. split; auto. split.
        -- intros n. rewrite A4. split; intros (s & Es & Os).
           ++ exists s. split; auto. rewrite SO; auto. apply (OLD _ _ Es).
           ++ destruct (CASES _ _ Es) as [[H E']|(j & -> & Hj & m' & Em & ->)]; [eauto|cbn in Os; congruence].
        -- intros n s Es Os. destruct (CASES _ _ Es) as [[H E']|(j & -> & Hj & m' & Em & ->)]; [eauto|cbn in Os; congruence].
    + intros n s x Es Eh Ec. rewrite GA in Eh. destruct (CASES _ _ Es) as [[H E']|(j & -> & Hj & m' & Em & ->)].
      * destruct (OLD _ _ E'). destruct (Nat.eqb_spec (s_owner s) g); [lia|]. eapply li_eager; eauto.
      * cbn [s_owner] in Eh. rewrite Nat.eqb_refl in Eh. injection Eh as <-. discriminate.
  - intros ks EN. rewrite load_root. assert (List.length (w_games (forced lw)) = g) as Lg by (unfold forced; cbn [w_games]; rewrite map_length; reflexivity).
    rewrite Lg, forced_length. fold root. rewrite <- EN. rewrite (nb_nodes _ NB). fold lt. apply world_ext.
    + intros n. rewrite forced_at. unfold node_at at 1. cbn [w_nodes].
      destruct (Nat.lt_ge_cases n root) as [H|H].
      * rewrite SO by exact H. rewrite nth_error_app1 by (rewrite forced_length; exact H). fold (node_at (forced lw) n). rewrite forced_at.
        destruct (slot_at lw n) as [s|] eqn:Es; [|reflexivity]. cbn [option_map]. f_equal. unfold forced_node.
        assert (final_links lw1 n s = final_links lw n s) as ->; [|reflexivity].
        unfold final_links. rewrite GA. destruct (OLD _ _ Es). destruct (Nat.eqb_spec (s_owner s) g); [lia|]. reflexivity.
      * rewrite nth_error_app2 by (rewrite forced_length; exact H). rewrite forced_length. fold root.
        replace n with (root + (n - root))%nat at 1 2 by lia. set (j := (n - root)%nat). rewrite SN.
        rewrite nth_error_map.
        destruct (nth_error (maps_of t) j) as [m'|] eqn:Em.
        -- assert ((j < N)%nat) as Hj by (rewrite <- MA; apply nth_error_Some; congruence).
           assert (List.length (links None lt) = N) as LL by (rewrite links_length by auto; rewrite KE; apply seq_length).
           destruct (nth_error (links None lt) j) as [[i y]|] eqn:El; [|apply nth_error_None in El; lia].
           assert (i = (root + j)%nat) as ->.
           { assert (nth_error (map fst (links None lt)) j = Some i) as X by (rewrite nth_error_map, El; reflexivity).
             rewrite links_keys, KE in X by auto. rewrite (nth_error_nth' _ O) in X by (rewrite seq_length; exact Hj).
             rewrite seq_nth in X by exact Hj. congruence. }
           assert (nth_error (combine (links None lt) (maps_of t)) j = Some ((root + j, y), m')%nat) as ->.
           { apply combine_nth; auto. }
           cbn [option_map]. unfold forced_node, node_from. cbn [s_owner s_props fst snd].
           assert (final_links lw1 (root + j) (mkSlot g m' (if Nat.eqb j 0 then Some (None, []) else None)) = y) as ->; [|reflexivity].
           unfold final_links. cbn [s_owner]. rewrite GA, Nat.eqb_refl. cbn [lg_coarse].
           rewrite (assoc_in (root + j) y); auto; [rewrite links_keys, KE by auto; apply seq_NoDup|]. eapply nth_error_In; eauto.
        -- apply nth_error_None in Em. rewrite MA in Em.
           destruct (nth_error (combine (links None lt) (maps_of t)) j) eqn:X; [|reflexivity].
           assert (nth_error (combine (links None lt) (maps_of t)) j <> None) as Y by congruence. apply nth_error_Some in Y. rewrite combine_length in Y. lia.
    + unfold forced, lw1. cbn [w_games lw_games]. rewrite map_app. reflexivity.
Qed.
