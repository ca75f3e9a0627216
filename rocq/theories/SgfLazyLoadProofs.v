(** Loading: the eager model's nodes, one by one, and the links of the numbered coarse tree
    (C68). *)
From Verif Require Import Base Bytes Dict SgfGrammarModel SgfGrammarSpec SgfGrammarProofs SgfTreeConvModel SgfTreeConvProofs SgfTreeModel SgfTreeSpec
  SgfTreeProofs SgfPropsModel SgfLazyModel SgfLazySpec SgfLazyBuildProofs.

Fixpoint nsize (t : ntree) : nat := match t with NT _ ks => S (list_sum (map nsize ks)) end.
Fixpoint starts (i : nat) (ks : list ntree) : list nat :=
  match ks with [] => [] | k :: r => i :: starts (i + nsize k) r end.
Fixpoint nodes_of (g : nat) (t : ntree) (p : option nat) (i : nat) : list tnode :=
  match t with
  | NT m ks => mkT g p (starts (S i) ks) m ::
      (fix go (j : nat) (ks : list ntree) : list tnode :=
         match ks with [] => [] | k :: r => nodes_of g k (Some i) j ++ go (j + nsize k)%nat r end) (S i) ks
  end.
Fixpoint forest (g i j : nat) (ks : list ntree) : list tnode :=
  match ks with [] => [] | k :: r => nodes_of g k (Some i) j ++ forest g i (j + nsize k) r end.
Lemma nodes_of_eq g m ks p i : nodes_of g (NT m ks) p i = mkT g p (starts (S i) ks) m :: forest g i (S i) ks.
Proof. cbn [nodes_of]. f_equal. generalize (S i). induction ks as [|k r IH]; intros j; cbn; auto. f_equal. auto. Qed.

Lemma nodes_of_length g t : forall p i, List.length (nodes_of g t p i) = nsize t.
Proof.
  induction t as [m ks IH] using ntree_ind'. intros p i. rewrite nodes_of_eq. cbn [List.length nsize]. f_equal.
  generalize (S i) at 1. induction IH as [|k r Hk _ IHr]; intros j; auto. cbn [forest map list_sum fold_right]. rewrite app_length, Hk, IHr. reflexivity.
Qed.
Lemma forest_length g i ks : forall j, List.length (forest g i j ks) = list_sum (map nsize ks).
Proof. induction ks as [|k r IH]; intros j; auto. cbn [forest map]. rewrite app_length, nodes_of_length, IH. reflexivity. Qed.

Lemma update_app_l {A} i (x : A) a b : (i < List.length a)%nat -> update i x (a ++ b) = update i x a ++ b.
Proof. revert i. induction a as [|y a IH]; intros [|i] H; cbn in *; try lia; f_equal; auto. apply IH. lia. Qed.
Lemma update_twice {A} i (x y : A) l : update i x (update i y l) = update i x l.
Proof. revert i. induction l as [|z l IH]; intros [|i]; cbn; f_equal; auto. Qed.
Lemma update_same {A} i (x : A) l : nth_error l i = Some x -> update i x l = l.
Proof. revert i. induction l as [|z l IH]; intros [|i] E; cbn in *; try discriminate; f_equal; [congruence|auto]. Qed.
Lemma update_last {A} (x y : A) l : update (List.length l) x (l ++ [y]) = l ++ [x].
Proof. induction l as [|z l IH]; cbn; f_equal; auto. Qed.

Definition loads (t : ntree) : Prop := forall parent w y, node_at w parent = Some y ->
  load_below t parent w =
    mkW (update parent (with_kids (t_kids y ++ [List.length (w_nodes w)]) y) (w_nodes w) ++
         nodes_of (t_owner y) t (Some parent) (List.length (w_nodes w))) (w_games w).

Lemma fold_loads ks : Forall loads ks -> forall w c y, node_at w c = Some y ->
  fold_left (fun w' k => load_below k c w') ks w =
    mkW (update c (with_kids (t_kids y ++ starts (List.length (w_nodes w)) ks) y) (w_nodes w) ++
         forest (t_owner y) c (List.length (w_nodes w)) ks) (w_games w).
Proof.
  intros F. induction F as [|k r Hk F IH]; intros w c y E.
  - cbn [fold_left starts forest]. rewrite !app_nil_r. destruct y as [o p l m]. unfold with_kids. cbn [t_owner t_parent t_kids t_props].
    rewrite update_same by exact E. destruct w; reflexivity.
  - cbn [fold_left]. assert ((c < List.length (w_nodes w))%nat) as Hc by (apply nth_error_Some; unfold node_at in E; congruence).
    rewrite (Hk c w y E). set (L := List.length (w_nodes w)) in *.
    rewrite (IH _ c (with_kids (t_kids y ++ [L]) y)).
    + cbn [w_nodes w_games]. f_equal. rewrite app_length, nodes_of_length, update_length. fold L.
      rewrite update_app_l by (rewrite update_length; exact Hc). rewrite update_twice. cbn [starts forest with_kids t_kids t_owner t_parent t_props].
      rewrite <- !app_assoc. reflexivity.
    + unfold node_at. cbn [w_nodes]. rewrite nth_error_app1 by (rewrite update_length; exact Hc). rewrite nth_update by exact Hc.
      rewrite Nat.eqb_refl. reflexivity.
Qed.

Lemma loads_all t : loads t.
Proof.
  induction t as [m ks IH] using ntree_ind'. intros parent w y E. cbn [load_below].
  assert ((parent < List.length (w_nodes w))%nat) as Hp by (apply nth_error_Some; unfold node_at in E; congruence).
  unfold new_node. rewrite E. cbn [place_at]. set (L := List.length (w_nodes w)) in *.
  unfold set_node. cbn [w_nodes w_games]. rewrite update_app_l by exact Hp.
  set (l1 := update parent (with_kids (t_kids y ++ [L]) y) (w_nodes w)).
  assert (List.length l1 = L) as L1 by apply update_length.
  rewrite (fold_loads ks IH _ L (mkT (t_owner y) (Some parent) [] m)).
  - cbn [w_nodes w_games t_kids t_owner app]. rewrite nodes_of_eq. f_equal. rewrite app_length, L1. cbn [List.length].
    rewrite <- L1 at 1. rewrite update_last, <- app_assoc. rewrite Nat.add_1_r. reflexivity.
  - unfold node_at. cbn [w_nodes]. rewrite nth_error_app2 by lia. rewrite L1, Nat.sub_diag. reflexivity.
Qed.

Lemma load_root w size e m ks :
  fold_left (fun w' k => load_below k (List.length (w_nodes w)) w') ks (alloc_game w size e m) =
  mkW (w_nodes w ++ nodes_of (List.length (w_games w)) (NT m ks) None (List.length (w_nodes w)))
      (w_games w ++ [mkGame (List.length (w_nodes w)) (new_presenter size e)]).
Proof.
  rewrite (fold_loads ks (proj2 (Forall_forall loads ks) (fun k _ => loads_all k)) _ _ (mkT (List.length (w_games w)) None [] m)).
  - unfold alloc_game. cbn [w_nodes w_games t_kids t_owner app with_kids t_parent t_props]. rewrite update_last, nodes_of_eq, <- app_assoc, app_length. cbn [List.length].
    rewrite Nat.add_1_r. reflexivity.
  - unfold node_at, alloc_game. cbn [w_nodes]. rewrite nth_error_app2 by lia. rewrite Nat.sub_diag. reflexivity.
Qed.

(** ** Numbering *)

Fixpoint numbers (ch : list ctree) (i : nat) : list lctree * nat :=
  match ch with
  | [] => ([], i)
  | c :: r => let '(c', i1) := number c i in let '(r', i2) := numbers r i1 in (c' :: r', i2)
  end.
Lemma number_eq sq ch i : number (CT sq ch) i =
  (LC (seq i (List.length sq)) (fst (numbers ch (i + List.length sq))), snd (numbers ch (i + List.length sq))).
Proof.
  cbn [number]. generalize (i + List.length sq)%nat. intros j.
  assert (forall j, (fix go (ch : list ctree) (i : nat) : list lctree * nat :=
                          match ch with
                          | [] => ([], i)
                          | c :: r => let '(c', i1) := number c i in
                                      let '(r', i2) := go r i1 in (c' :: r', i2)
                          end) ch j = numbers ch j) as ->.
  { intros k. reflexivity. }
  destruct (numbers ch j); reflexivity.
Qed.

Definition node_from (g : nat) (z : (nat * (option nat * list nat)) * pmap) : tnode :=
  mkT g (fst (snd (fst z))) (snd (snd (fst z))) (snd z).

Record numbered (t : ctree) : Prop := mkNumbered {
  nb_next : forall i, snd (number t i) = (i + nsize (ntree_of t))%nat;
  nb_seqs : forall i, lseqs (fst (number t i));
  nb_head : forall i, firstn 1 (lc_sequence (fst (number t i))) = [i];
  nb_maps : List.length (maps_of t) = nsize (ntree_of t);
  nb_keys : forall i, llabels (fst (number t i)) = seq i (nsize (ntree_of t));
  nb_nodes : forall g p i, nodes_of g (ntree_of t) p i = map (node_from g) (combine (links p (fst (number t i))) (maps_of t))
}.

Lemma combine_app {A B} (a1 a2 : list A) (b1 b2 : list B) : List.length a1 = List.length b1 ->
  combine (a1 ++ a2) (b1 ++ b2) = combine a1 b1 ++ combine a2 b2.
Proof. revert b1. induction a1 as [|x a1 IH]; intros [|y b1] E; cbn in *; try discriminate; auto. f_equal. apply IH. lia. Qed.

Lemma links_length t p : lseqs t -> List.length (links p t) = List.length (llabels t).
Proof. intros L. rewrite <- (links_keys t p L), map_length. reflexivity. Qed.

Lemma numbers_ok ch : Forall numbered ch ->
  (forall i, snd (numbers ch i) = (i + list_sum (map nsize (map ntree_of ch)))%nat) /\
  (forall i, Forall lseqs (fst (numbers ch i))) /\
  (forall i, heads (fst (numbers ch i)) = starts i (map ntree_of ch)) /\
  List.length (flat_map maps_of ch) = list_sum (map nsize (map ntree_of ch)) /\
  (forall i, flat_map llabels (fst (numbers ch i)) = seq i (list_sum (map nsize (map ntree_of ch)))) /\
  (forall g n i, forest g n i (map ntree_of ch) =
     map (node_from g) (combine (flat_map (links (Some n)) (fst (numbers ch i))) (flat_map maps_of ch))).
Proof.
  intros F. induction F as [|c ch Hc F (I1 & I2 & I3 & I4 & I5 & I6)].
  - cbn. repeat split; auto.
  - assert (forall i, numbers (c :: ch) i = (fst (number c i) :: fst (numbers ch (i + nsize (ntree_of c))), snd (numbers ch (i + nsize (ntree_of c))))) as EN.
    { intros i. cbn [numbers]. pose proof (nb_next _ Hc i) as E. destruct (number c i) as [c' j]. cbn [snd] in E. subst j.
      destruct (numbers ch (i + nsize (ntree_of c))); reflexivity. }
    cbn [map flat_map list_sum fold_right]. change (fold_right Nat.add 0%nat) with list_sum.
    split; [|split; [|split; [|split; [|split]]]].
    + intros i. rewrite EN. cbn [snd]. rewrite I1. unfold list_sum. lia.
    + intros i. rewrite EN. cbn [fst]. constructor; auto. apply nb_seqs. auto.
    + intros i. rewrite EN. cbn [fst starts]. unfold heads. cbn [flat_map]. rewrite (nb_head _ Hc). cbn [app]. f_equal. apply I3.
    + rewrite app_length, I4, (nb_maps _ Hc). reflexivity.
    + intros i. rewrite EN. cbn [fst flat_map]. rewrite (nb_keys _ Hc), I5. rewrite <- seq_app. reflexivity.
    + intros g n i. rewrite EN. cbn [fst flat_map forest]. rewrite combine_app, map_app; [|].
      * f_equal; [apply nb_nodes; auto|apply I6].
      * rewrite links_length by (apply nb_seqs; auto). rewrite (nb_keys _ Hc), seq_length, (nb_maps _ Hc). reflexivity.
Qed.

Lemma numbered_all t : seqs_ok t -> numbered t.
Proof.
  induction t as [sq ch IH] using ctree_ind'. intros S. inversion S as [? ? Ns Fs]; subst.
  assert (Forall numbered ch) as FN.
  { clear - IH Fs. induction Fs; inversion IH; subst; constructor; auto. }
  destruct (numbers_ok ch FN) as (I1 & I2 & I3 & I4 & I5 & I6).
  destruct sq as [|m sq]; [congruence|]. clear Ns S.
  assert (nsize (ntree_of (CT (m :: sq) ch)) = (S (List.length sq) + list_sum (map nsize (map ntree_of ch)))%nat) as SZ.
  { cbn [ntree_of]. clear. revert m. induction sq as [|m' sq IH]; intros m; [reflexivity|].
    change (chain_nodes (m :: m' :: sq) (map ntree_of ch)) with (NT m [chain_nodes (m' :: sq) (map ntree_of ch)]).
    cbn [nsize map]. rewrite IH. cbn [list_sum fold_right List.length]. lia. }
  constructor.
  - intros i. rewrite number_eq. cbn [snd]. rewrite I1, SZ. cbn [List.length]. lia.
  - intros i. rewrite number_eq. cbn [fst]. constructor; [discriminate|]. apply I2.
  - intros i. rewrite number_eq. reflexivity.
  - cbn [maps_of]. rewrite app_length, I4, SZ. reflexivity.
  - intros i. rewrite number_eq. cbn [fst llabels]. rewrite I5, SZ. rewrite <- seq_app. reflexivity.
  - intros g p i. rewrite number_eq. cbn [fst maps_of ntree_of List.length]. clear IH FN SZ Fs.
    revert m p i. induction sq as [|m' sq IHs]; intros m p i.
    + cbn [chain_nodes List.length seq]. rewrite links_one, nodes_of_eq. cbn [app combine map]. rewrite Nat.add_1_r, I3, I6. reflexivity.
    + change (chain_nodes (m :: m' :: sq) (map ntree_of ch)) with (NT m [chain_nodes (m' :: sq) (map ntree_of ch)]).
      rewrite nodes_of_eq. cbn [List.length seq]. rewrite links_cons2. cbn [app combine map]. f_equal.
      cbn [forest]. rewrite app_nil_r, IHs. cbn [List.length seq]. replace (i + S (S (List.length sq)))%nat with (S i + S (List.length sq))%nat by lia.
      reflexivity.
Qed.
