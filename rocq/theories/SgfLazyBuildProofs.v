(** make_tree on slots (C68). *)
From Coq Require Import Permutation.
From Verif Require Import Base Bytes SgfTreeConvModel SgfTreeConvProofs SgfTreeModel SgfLazyModel SgfLazySpec.

Lemma lctree_ind' (P : lctree -> Prop) : (forall sq ch, Forall P ch -> P (LC sq ch)) -> forall t, P t.
Proof.
  intros H. fix IH 1. intros [sq ch]. apply H. induction ch; constructor; auto.
Qed.

Inductive lseqs : lctree -> Prop :=
| lseqs_intro sq ch : sq <> [] -> Forall lseqs ch -> lseqs (LC sq ch).

Fixpoint llabels (t : lctree) : list nat := match t with LC sq ch => sq ++ flat_map llabels ch end.

Lemma links_cons2 p n n' sq ch : links p (LC (n :: n' :: sq) ch) = (n, (p, [n'])) :: links (Some n) (LC (n' :: sq) ch).
Proof. reflexivity. Qed.
Lemma links_one p n ch : links p (LC [n] ch) = (n, (p, heads ch)) :: flat_map (links (Some n)) ch.
Proof. reflexivity. Qed.

Lemma links_keys t : forall p, lseqs t -> map fst (links p t) = llabels t.
Proof.
  induction t as [sq ch IH] using lctree_ind'. intros p L. inversion L as [? ? N F]; subst.
  destruct sq as [|n sq]; [congruence|]. clear L N. revert p n. induction sq as [|n' sq IHs]; intros p n.
  - rewrite links_one. cbn [map fst llabels app]. f_equal. clear - IH F. induction F as [|c ch Lc F IHF]; auto.
    inversion IH; subst. cbn [flat_map]. rewrite map_app. f_equal; auto.
  - rewrite links_cons2. cbn [map fst]. rewrite (IHs (Some n) n'). reflexivity.
Qed.

Definition nd (l : list slot) (i : nat) : option (option nat * list nat) :=
  match nth_error l i with Some s => s_node s | None => None end.
Definition body (s : slot) := (s_owner s, s_props s).

Lemma update_length {A} i (x : A) l : List.length (update i x l) = List.length l.
Proof. revert i; induction l as [|y l IH]; intros [|i]; simpl; auto. Qed.
Lemma nth_update {A} i j (x : A) l : (i < List.length l)%nat ->
  nth_error (update i x l) j = if Nat.eqb i j then Some x else nth_error l j.
Proof.
  revert i j; induction l as [|y l IH]; intros [|i] [|j]; simpl; intros H; try lia; auto.
  rewrite IH by lia. reflexivity.
Qed.
Lemma map_update {A B} (f : A -> B) i (x y : A) l : nth_error l i = Some y -> f x = f y -> map f (update i x l) = map f l.
Proof.
  revert i; induction l as [|z l IH]; intros [|i]; simpl; intros E H; try discriminate; f_equal.
  - injection E as ->. exact H.
  - eauto.
Qed.

Lemma set_slot_body l n x : map body (set_slot l n x) = map body l.
Proof.
  unfold set_slot. destruct (nth_error l n) as [s|] eqn:E; auto. eapply map_update; eauto.
Qed.
Lemma set_slot_length l n x : List.length (set_slot l n x) = List.length l.
Proof. rewrite <- (map_length body), set_slot_body, map_length. reflexivity. Qed.
Lemma set_slot_nd l n x i : (n < List.length l)%nat -> nd (set_slot l n x) i = if Nat.eqb n i then Some x else nd l i.
Proof.
  intros H. unfold nd, set_slot. destruct (nth_error l n) as [s|] eqn:E; [|apply nth_error_None in E; lia].
  rewrite nth_update by auto. destruct (Nat.eqb n i); reflexivity.
Qed.
Lemma node_of_nd l n x : nd l n = Some x -> node_of l n = x.
Proof. unfold nd, node_of. destruct (nth_error l n) as [s|]; [|discriminate]. intros ->. reflexivity. Qed.

Lemma build_child_nd l n c p ks i : nd l n = Some (p, ks) -> n <> c -> (n < List.length l)%nat -> (c < List.length l)%nat ->
  nd (build_child l n c) i = if Nat.eqb n i then Some (p, ks ++ [c]) else if Nat.eqb c i then Some (Some n, []) else nd l i.
Proof.
  intros E N Hn Hc. unfold build_child.
  assert (node_of (set_slot l c (Some n, [])) n = (p, ks)) as ->.
  { apply node_of_nd. rewrite set_slot_nd by auto. destruct (Nat.eqb_spec c n); [congruence|auto]. }
  rewrite set_slot_nd by (rewrite set_slot_length; auto). destruct (Nat.eqb n i); auto.
  rewrite set_slot_nd by auto. reflexivity.
Qed.
Lemma build_child_body l n c : map body (build_child l n c) = map body l.
Proof. unfold build_child. rewrite !set_slot_body. reflexivity. Qed.
Lemma build_child_length l n c : List.length (build_child l n c) = List.length l.
Proof. unfold build_child. rewrite !set_slot_length. reflexivity. Qed.

(** The loop over the children trees. *)
Lemma build_children_ok ch : forall l n p ks l' items, Forall lseqs ch -> nd l n = Some (p, ks) -> (n < List.length l)%nat ->
  NoDup (n :: heads ch) -> Forall (fun i => (i < List.length l)%nat) (heads ch) ->
  build_children l n ch = (l', items) ->
  map body l' = map body l /\
  items = map (fun c => (hd O (lc_sequence c), c, O)) ch /\
  nd l' n = Some (p, ks ++ heads ch) /\
  (forall i, In i (heads ch) -> nd l' i = Some (Some n, [])) /\
  (forall i, i <> n -> ~ In i (heads ch) -> nd l' i = nd l i).
Proof.
  induction ch as [|c ch IH]; intros l n p ks l' items F E Hn ND R B.
  - injection B as <- <-. cbn. rewrite app_nil_r. repeat split; auto. intros i [].
  - cbn [build_children] in B. inversion F as [|? ? Lc F']; subst. inversion Lc as [sq cc Ns Fs]; subst.
    destruct sq as [|h sq]; [congruence|]. cbn [lc_sequence] in B.
    destruct (build_children (build_child l n h) n ch) as [l2 its] eqn:B2. injection B as <- <-.
    change (heads (LC (h :: sq) cc :: ch)) with (h :: heads ch) in *.
    inversion ND as [|? ? Nin ND']; subst. inversion ND' as [|? ? Nh ND'']; subst. inversion R as [|? ? Rh R']; subst.
    assert (n <> h) as NH by (intros ->; apply Nin; left; auto).
    destruct (IH (build_child l n h) n p (ks ++ [h]) l2 its) as (Bo & Ei & En & Eh & Eo); auto.
    + rewrite (build_child_nd l n h p ks) by auto. rewrite Nat.eqb_refl. reflexivity.
    + rewrite build_child_length. auto.
    + constructor; auto. intros I. apply Nin. right. auto.
    + eapply Forall_impl; [|exact R']. intros i. cbn. rewrite build_child_length. auto.
    + split; [rewrite Bo; apply build_child_body|]. split; [cbn; rewrite Ei; reflexivity|]. split; [rewrite En, <- app_assoc; reflexivity|]. split.
      * intros i [<-|I]; [|auto]. rewrite Eo by auto. rewrite (build_child_nd l n h p ks) by auto.
        destruct (Nat.eqb_spec n h); [congruence|]. rewrite Nat.eqb_refl. reflexivity.
      * intros i N1 N2. rewrite Eo; auto; [|intros I; apply N2; right; auto].
        rewrite (build_child_nd l n h p ks) by auto. destruct (Nat.eqb_spec n i); [congruence|].
        destruct (Nat.eqb_spec h i) as [->|_]; [|reflexivity]. contradiction N2. left. auto.
Qed.

Definition sub (it : nat * lctree * nat) : lctree :=
  match it with (_, LC sq ch, i) => LC (skipn i sq) ch end.
Definition item_ok (l : list slot) (it : nat * lctree * nat) : Prop :=
  exists p rest, lc_sequence (sub it) = fst (fst it) :: rest /\ nd l (fst (fst it)) = Some (p, []) /\ lseqs (sub it).
Definition items_labels (st : list (nat * lctree * nat)) : list nat := flat_map (fun it => llabels (sub it)) st.
Definition items_nodes (st : list (nat * lctree * nat)) : nat := list_sum (map (fun it => lctree_nodes (sub it)) st).

Lemma heads_labels ch i : Forall lseqs ch -> In i (heads ch) -> In i (flat_map llabels ch).
Proof.
  intros F I. apply in_flat_map in I. destruct I as (c & Ic & I). apply in_flat_map. exists c. split; auto.
  destruct c as [[|h sq] cc]; [contradiction|]. cbn in *. destruct I as [<-|[]]. left. auto.
Qed.
Lemma heads_nodup ch : Forall lseqs ch -> NoDup (flat_map llabels ch) -> NoDup (heads ch).
Proof.
  intros F. induction F as [|c ch Lc F IH]; intros N; [constructor|].
  inversion Lc as [sq cc Ns Fs]; subst. destruct sq as [|h sq]; [congruence|].
  cbn [flat_map llabels app] in N. change (heads (LC (h :: sq) cc :: ch)) with (h :: heads ch).
  inversion N as [|? ? N1 N2]; subst. constructor.
  - intros I. apply N1. apply in_or_app. right. apply heads_labels; auto.
  - apply IH. clear - N2. rewrite <- app_assoc in N2. revert N2. generalize (flat_map llabels cc). induction sq as [|a sq IH]; cbn; intros l N.
    + induction l as [|b l IH]; auto. cbn in N. inversion N; auto.
    + inversion N; eauto.
Qed.

Lemma nodup_app_l {A} (a b : list A) : NoDup (a ++ b) -> NoDup a /\ NoDup b /\ (forall x, In x a -> ~ In x b).
Proof.
  induction a as [|x a IH]; cbn; intros N; [repeat split; auto; constructor|].
  inversion N as [|? ? N1 N2]; subst. destruct (IH N2) as (A1 & B1 & D). split; [|split; auto].
  - constructor; auto. intros I. apply N1. apply in_or_app. auto.
  - intros y [<-|I]; auto. intros I. apply N1. apply in_or_app. auto.
Qed.

Lemma loop_ok : forall fuel stack l, Forall (item_ok l) stack -> NoDup (items_labels stack) ->
  Forall (fun i => (i < List.length l)%nat) (items_labels stack) -> (items_nodes stack <= fuel)%nat ->
  let l' := make_tree_loop fuel stack l in
  map body l' = map body l /\
  (forall it x, In it stack -> In x (links (fst (node_of l (fst (fst it)))) (sub it)) -> nd l' (fst x) = Some (snd x)) /\
  (forall i, ~ In i (items_labels stack) -> nd l' i = nd l i).
Proof.
  induction fuel as [|fuel IH]; intros stack l F ND R SZ.
  { cbn [make_tree_loop]. split; auto. split; auto. intros [[n t] i] x I. exfalso.
    rewrite Forall_forall in F. specialize (F _ I). destruct F as (p & rest & E & _). 
    assert (lctree_nodes (sub (n, t, i)) <= 0)%nat as Z0.
    { unfold items_nodes in SZ. clear - SZ I. induction stack as [|a st IH]; [contradiction|]. cbn [map list_sum fold_right] in SZ. unfold list_sum in *. destruct I as [->|I]; [lia|apply IH; auto; lia]. }
    destruct (sub (n, t, i)) as [sq ch]. cbn in E. subst sq. cbn in Z0. lia. }
  destruct stack as [|[[n t] idx] stack]; [cbn; repeat split; auto; intros ? ? []|].
  destruct t as [sq ch]. inversion F as [|? ? (p & rest & E & En & LS) F']; subst. cbn [sub lc_sequence fst] in E, En, LS.
  unfold items_labels in ND, R. cbn [flat_map sub] in ND, R. fold (items_labels stack) in ND, R. rewrite E in ND, R, LS.
  assert (items_nodes stack + lctree_nodes (LC (n :: rest) ch) <= S fuel)%nat as SZ'.
  { unfold items_nodes in *. cbn [map list_sum fold_right sub] in SZ. rewrite E in SZ. cbn [list_sum fold_right] in SZ. unfold list_sum in *. lia. }
  clear SZ. cbn [make_tree_loop].
  assert (nth_error sq (idx + 1) = nth_error rest 0) as NE.
  { clear - E. revert sq E. induction idx as [|idx IHi]; intros [|a sq] E; try discriminate; [injection E as _ ->; reflexivity|].
    cbn [skipn] in E. cbn [Nat.add nth_error]. apply IHi. exact E. }
  rewrite NE. assert (node_of l n = (p, [])) as NO by (apply node_of_nd; auto).
  assert ((n < List.length l)%nat) as Hn by (inversion R; auto).
  destruct rest as [|c rest]; cbn [nth_error].
  - (* the end of a sequence *)
    rewrite NO. cbn [fst]. set (l0 := set_slot l n (p, [])).
    destruct (build_children l0 n ch) as [l1 items] eqn:B.
    inversion LS as [? ? _ FL]; subst. cbn [llabels app] in ND, R.
    inversion ND as [|? ? N1 ND1]; subst. inversion R as [|? ? _ R1]; subst.
    destruct (nodup_app_l _ _ ND1) as (NDc & NDs & DJ). apply Forall_app in R1. destruct R1 as [Rc Rs].
    destruct (build_children_ok ch l0 n p [] l1 items FL) as (Bo & Ei & E1 & Eh & Eo); auto.
    { unfold l0. rewrite set_slot_nd by auto. rewrite Nat.eqb_refl. reflexivity. }
    { unfold l0. rewrite set_slot_length. auto. }
    { constructor; [|apply heads_nodup; auto]. intros I. apply N1. apply in_or_app. left. apply heads_labels; auto. }
    { apply Forall_forall. intros i I. unfold l0. rewrite set_slot_length. rewrite Forall_forall in Rc. apply Rc, heads_labels; auto. }
    cbn [app] in E1.
    assert (List.length l1 = List.length l) as Ll.
    { rewrite <- (map_length body), Bo. unfold l0. rewrite set_slot_body, map_length. reflexivity. }
    assert (forall i, i <> n -> ~ In i (heads ch) -> nd l1 i = nd l i) as Eo'.
    { intros i A1 A2. rewrite Eo by auto. unfold l0. rewrite set_slot_nd by auto. destruct (Nat.eqb_spec n i); [congruence|auto]. }
    assert (forall i, In i (items_labels stack) -> nd l1 i = nd l i) as Es.
    { intros i I. apply Eo'; [intros ->; apply N1; apply in_or_app; auto|]. intros I2. apply (DJ i); auto. apply heads_labels; auto. }
    assert (items_labels items = flat_map llabels ch) as EL.
    { subst items. clear. unfold items_labels. induction ch as [|[sq cc] ch IH]; cbn; auto. f_equal; auto. }
    assert (items_nodes items = fold_right (fun x n => (lctree_nodes x + n)%nat) O ch) as EN.
    { subst items. clear. unfold items_nodes. induction ch as [|[sq cc] ch IH]; cbn; auto. }
    assert (Permutation (rev items ++ stack) (items ++ stack)) as PM by (apply Permutation_app_tail, Permutation_sym, Permutation_rev).
    assert (Permutation (items_labels (rev items ++ stack)) (flat_map llabels ch ++ items_labels stack)) as PL.
    { rewrite <- EL. unfold items_labels. rewrite <- flat_map_app. apply Permutation_flat_map. exact PM. }
    assert (items_nodes (rev items ++ stack) = (items_nodes items + items_nodes stack)%nat) as PS.
    { unfold items_nodes. rewrite map_app, list_sum_app. f_equal. rewrite map_rev. clear. induction (map (fun it => lctree_nodes (sub it)) items) as [|a r IH]; auto.
      cbn [rev]. rewrite list_sum_app, IH. cbn [list_sum fold_right]. unfold list_sum. lia. }
    destruct (IH (rev items ++ stack) l1) as (Bo2 & In2 & Out2).
    + apply Forall_app. split.
      * apply Forall_rev. subst items. apply Forall_forall. intros it I. apply in_map_iff in I. destruct I as (c & <- & Ic).
        rewrite Forall_forall in FL. specialize (FL _ Ic). pose proof FL as FLc. inversion FLc as [sqc cc Nc Fc]; subst. destruct sqc as [|h sqc]; [congruence|].
        exists (Some n), sqc. cbn. split; auto. split; auto. apply Eh. unfold heads. apply in_flat_map. exists (LC (h :: sqc) cc). split; auto. left. auto.
      * apply Forall_forall. intros [[m t'] j] I. rewrite Forall_forall in F'. destruct (F' _ I) as (q & rs & A1 & A2 & A3).
        exists q, rs. split; auto. split; auto. rewrite Es; auto. unfold items_labels. apply in_flat_map. exists (m, t', j). split; auto.
        cbn [fst] in A1. destruct (sub (m, t', j)) as [sq' ch']. cbn in A1. subst sq'. left. auto.
    + eapply Permutation_NoDup; [apply Permutation_sym; exact PL|exact ND1].
    + eapply Permutation_Forall; [apply Permutation_sym; exact PL|]. rewrite Ll. apply Forall_app. auto.
    + rewrite PS, EN. cbn [lctree_nodes List.length] in SZ'. lia.
    + assert (forall i, ~ In i (flat_map llabels ch ++ items_labels stack) -> nd (make_tree_loop fuel (rev items ++ stack) l1) i = nd l1 i) as Out3.
      { intros i I. apply Out2. intros I'. apply I. eapply Permutation_in; eauto. }
      split; [|split].
      * rewrite Bo2, Bo. unfold l0. apply set_slot_body.
      * intros it x [<-|I] X.
        -- cbn [fst sub] in X. rewrite E, NO, links_one in X. cbn [fst] in X. destruct X as [<-|X].
           ++ cbn [fst snd]. rewrite Out3 by auto. exact E1.
           ++ apply in_flat_map in X. destruct X as (c & Ic & X).
              pose proof FL as FL0. rewrite Forall_forall in FL0. specialize (FL0 _ Ic). destruct c as [sqc cc]. inversion FL0 as [? ? Nc Fc]; subst.
              destruct sqc as [|h sqc]; [congruence|].
              apply (In2 (h, LC (h :: sqc) cc, O)).
              ** apply in_or_app. left. apply -> in_rev. apply in_map_iff. exists (LC (h :: sqc) cc). auto.
              ** cbn [fst sub skipn]. rewrite (node_of_nd l1 h (Some n, [])); [exact X|]. apply Eh. apply in_flat_map. exists (LC (h :: sqc) cc). split; auto. left. auto.
        -- apply (In2 it); [apply in_or_app; auto|]. 
           assert (node_of l1 (fst (fst it)) = node_of l (fst (fst it))) as ->; auto.
           rewrite Forall_forall in F'. destruct (F' _ I) as (q & rs & A1 & A2 & A3).
           rewrite (node_of_nd l _ _ A2). apply node_of_nd. rewrite Es; auto.
           unfold items_labels. apply in_flat_map. exists it. split; auto. destruct (sub it) as [sq' ch']. cbn in A1. subst sq'. left. auto.
      * intros i I. unfold items_labels in I. cbn [flat_map sub] in I. fold (items_labels stack) in I. rewrite E in I. cbn [llabels app] in I.
        rewrite Out3; [|intros I'; apply I; right; auto]. apply Eo'; [intros ->; apply I; left; auto|].
        intros I'. apply I. right. apply in_or_app. left. apply heads_labels; auto.
  - (* inside a sequence *)
    assert (skipn (idx + 1) sq = c :: rest) as E1.
    { replace (idx + 1)%nat with (1 + idx)%nat by lia. clear - E. revert sq E. induction idx as [|idx IH]; intros [|a sq] E; try discriminate.
      - injection E as _ ->. reflexivity.
      - cbn [skipn] in *. apply IH in E. exact E. }
    inversion LS as [? ? _ FL]; subst. cbn [llabels app] in ND, R.
    inversion ND as [|? ? N1 ND1]; subst. inversion R as [|? ? _ R1]; subst.
    assert (n <> c) as NC by (intros ->; apply N1; left; auto). assert ((c < List.length l)%nat) as Hc by (inversion R1; auto).
    set (l1 := build_child l n c).
    assert (forall i, nd l1 i = if Nat.eqb n i then Some (p, [c]) else if Nat.eqb c i then Some (Some n, []) else nd l i) as EC.
    { intros i. unfold l1. rewrite (build_child_nd l n c p []) by auto. reflexivity. }
    assert (List.length l1 = List.length l) as Ll by apply build_child_length.
    assert (llabels (LC (c :: rest) ch) ++ items_labels stack = c :: (rest ++ flat_map llabels ch) ++ items_labels stack) as EQL by reflexivity.
    assert (forall i, In i (items_labels stack) -> nd l1 i = nd l i) as Es.
    { intros i I. rewrite EC. destruct (Nat.eqb_spec n i) as [->|_].
      - contradiction N1. right. apply in_or_app. auto.
      - destruct (Nat.eqb_spec c i) as [->|_]; auto. inversion ND1 as [|? ? X _]; subst. contradiction X. apply in_or_app. auto. }
    destruct (IH ((c, LC sq ch, (idx + 1)%nat) :: stack) l1) as (Bo2 & In2 & Out2).
    + constructor.
      * exists (Some n), rest. cbn [sub lc_sequence fst]. rewrite E1. split; auto. split; [|constructor; auto; discriminate].
        rewrite EC. destruct (Nat.eqb_spec n c); [congruence|]. rewrite Nat.eqb_refl. reflexivity.
      * apply Forall_forall. intros it I. rewrite Forall_forall in F'. destruct (F' _ I) as (q & rs & A1 & A2 & A3).
        exists q, rs. split; auto. split; auto. rewrite Es; auto. unfold items_labels. apply in_flat_map. exists it. split; auto.
        destruct (sub it) as [sq' ch']. cbn in A1. subst sq'. left. auto.
    + unfold items_labels. cbn [flat_map sub]. rewrite E1. exact ND1.
    + unfold items_labels. cbn [flat_map sub]. rewrite E1, Ll. exact R1.
    + unfold items_nodes in *. cbn [map list_sum fold_right sub]. rewrite E1. cbn [lctree_nodes List.length] in *. unfold list_sum in *. lia.
    + split; [rewrite Bo2; apply build_child_body|]. 
      assert (forall i, ~ In i ((c :: rest ++ flat_map llabels ch) ++ items_labels stack) ->
        nd (make_tree_loop fuel ((c, LC sq ch, (idx + 1)%nat) :: stack) l1) i = nd l1 i) as Out3.
      { intros i I. apply Out2. unfold items_labels. cbn [flat_map sub]. rewrite E1. exact I. }
      split.
      * intros it x [<-|I] X.
        -- cbn [fst sub] in X. rewrite E, NO, links_cons2 in X. cbn [fst] in X. destruct X as [<-|X].
           ++ cbn [fst snd]. rewrite Out3 by auto. rewrite EC, Nat.eqb_refl. reflexivity.
           ++ apply (In2 (c, LC sq ch, (idx + 1)%nat)); [left; auto|]. cbn [fst sub]. rewrite E1.
              rewrite (node_of_nd l1 c (Some n, [])); auto. rewrite EC. destruct (Nat.eqb_spec n c); [congruence|]. rewrite Nat.eqb_refl. reflexivity.
        -- apply (In2 it); [right; auto|].
           assert (node_of l1 (fst (fst it)) = node_of l (fst (fst it))) as ->; auto.
           rewrite Forall_forall in F'. destruct (F' _ I) as (q & rs & A1 & A2 & A3).
           rewrite (node_of_nd l _ _ A2). apply node_of_nd. rewrite Es; auto.
           unfold items_labels. apply in_flat_map. exists it. split; auto. destruct (sub it) as [sq' ch']. cbn in A1. subst sq'. left. auto.
      * intros i I. unfold items_labels in I. cbn [flat_map sub] in I. fold (items_labels stack) in I. rewrite E in I. cbn [llabels app] in I.
        rewrite Out3; [|intros I'; apply I; right; auto]. rewrite EC. destruct (Nat.eqb_spec n i) as [->|_]; [contradiction I; left; auto|].
        destruct (Nat.eqb_spec c i) as [->|_]; auto. contradiction I. right. left. auto.
Qed.
