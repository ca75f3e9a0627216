(** Games without variations, as they are built by [extend_main_sequence]: the nodes of such a
    game written out in full. *)
From Verif Require Import Base Bytes PyStr Dict BoardModel BoardSpec CommonModel SgfGrammarModel SgfGrammarSpec
  SgfTreeConvModel SgfGrammarProofs SgfPropsModel SgfPropsSpec SgfValueSpec SgfValueProofs SgfTypeErrorProofs
  SgfTreeModel SgfTreeSpec SgfTreeProofs SgfNodeProofs SgfGameProofs SgfMovesModel GameplayModel GameSgfModel GameSgfSpec.

(** ** The nodes *)

Fixpoint chain (i base : nat) (parent : option nat) (ps : list pmap) : list tnode :=
  match ps with
  | [] => []
  | p :: rest =>
      mkT i parent (match rest with [] => [] | _ => [S base] end) p :: chain i (S base) (Some base) rest
  end.

Definition world_of (w0 : world) (pr : presenter) (ps : list pmap) : world :=
  mkW (w_nodes w0 ++ chain (List.length (w_games w0)) (List.length (w_nodes w0)) None ps)
      (w_games w0 ++ [SgfTreeModel.mkGame (List.length (w_nodes w0)) pr]).

Lemma chain_length i base par ps : List.length (chain i base par ps) = List.length ps.
Proof. revert base par. induction ps as [|p ps IH]; intros; simpl; auto. Qed.

Lemma chain_nth i ps : forall base par j, (j < List.length ps)%nat ->
  nth_error (chain i base par ps) j =
  Some (mkT i (match j with O => par | S j' => Some (base + j')%nat end)
            (if Nat.eqb (S j) (List.length ps) then [] else [base + S j]%nat) (nth j ps [])).
Proof.
  induction ps as [|p ps IH]; intros base par j L; [simpl in L; lia|].
  destruct j as [|j]; cbn [chain nth_error].
  - destruct ps as [|q ps]; [reflexivity|]. cbn. replace (base + 1)%nat with (S base) by lia. reflexivity.
  - simpl in L. rewrite IH by lia. cbn [nth List.length]. f_equal. f_equal.
    + destruct j; f_equal; lia.
    + change (Nat.eqb (S (S j)) (S (List.length ps))) with (Nat.eqb (S j) (List.length ps)). destruct (Nat.eqb (S j) (List.length ps)); [reflexivity|]. f_equal. lia.
Qed.

Lemma chain_update i ps : forall base par j m, (j < List.length ps)%nat ->
  update j (mkT i (match j with O => par | S j' => Some (base + j')%nat end)
            (if Nat.eqb (S j) (List.length ps) then [] else [base + S j]%nat) m) (chain i base par ps) =
  chain i base par (update j m ps).
Proof.
  induction ps as [|p ps IH]; intros base par j m L; [simpl in L; lia|].
  destruct j as [|j]; cbn [chain update].
  - destruct ps as [|q ps]; [reflexivity|]. cbn. replace (base + 1)%nat with (S base) by lia. reflexivity.
  - simpl in L. f_equal.
    + destruct ps as [|q ps]; [simpl in L; lia|]. destruct j; reflexivity.
    + rewrite <- (IH (S base) (Some base) j m) by lia. f_equal. f_equal.
      * destruct j; f_equal; lia.
      * cbn [List.length]. change (Nat.eqb (S (S j)) (S (List.length ps))) with (Nat.eqb (S j) (List.length ps)). destruct (Nat.eqb (S j) (List.length ps)); [reflexivity|]. f_equal. lia.
Qed.

Lemma chain_snoc i ps : forall base par m, ps <> [] ->
  chain i base par (ps ++ [m]) =
  let last := (List.length ps - 1)%nat in
  update last (mkT i (match last with O => par | S j' => Some (base + j')%nat end) [base + List.length ps]%nat (nth last ps []))
         (chain i base par ps ++ [mkT i (Some (base + last)%nat) [] m]).
Proof.
  induction ps as [|p ps IH]; intros base par m NE; [congruence|]. cbn [app chain].
  destruct ps as [|q ps].
  - cbn. replace (base + 1)%nat with (S base) by lia. replace (base + 0)%nat with base by lia. reflexivity.
  - rewrite (IH (S base) (Some base) m) by discriminate. cbv zeta. cbn [List.length].
    replace (S (S (List.length ps)) - 1)%nat with (S (List.length ps)) by lia.
    replace (S (List.length ps) - 1)%nat with (List.length ps) by lia.
    set (rest := chain i (S base) (Some base) (q :: ps)). cbn [app update nth].
    f_equal. f_equal.
    + f_equal.
      * destruct (List.length ps); f_equal; lia.
      * f_equal. lia.
    + f_equal. f_equal. f_equal. f_equal. lia.
Qed.

Lemma update_app_left {A} n (x : A) a b : (n < List.length a)%nat -> update n x (a ++ b) = update n x a ++ b.
Proof. revert n. induction a as [|y a IH]; intros n L; simpl in L; [lia|]. destruct n; simpl; [reflexivity|]. f_equal. apply IH. lia. Qed.

Lemma update_app_right {A} n (x : A) a b : update (List.length a + n) x (a ++ b) = a ++ update n x b.
Proof. induction a as [|y a IH]; simpl; [reflexivity|]. f_equal. exact IH. Qed.

Lemma nth_upd {A} n m (x d : A) l : (n < List.length l)%nat ->
  nth m (update n x l) d = if Nat.eqb m n then x else nth m l d.
Proof.
  revert n m. induction l as [|y l IH]; intros n m L; simpl in L; [lia|]. destruct n, m; simpl; auto. apply IH. lia.
Qed.

(** ** Operations on them *)

Section World.
Variables (w0 : world) (pr : presenter).
Let base := List.length (w_nodes w0).
Let i := List.length (w_games w0).
Notation W := (world_of w0 pr).

Lemma world_length ps : List.length (w_nodes (W ps)) = (base + List.length ps)%nat.
Proof. unfold world_of. cbn [w_nodes]. rewrite app_length, chain_length. reflexivity. Qed.

Lemma world_old ps n x : node_at w0 n = Some x -> node_at (W ps) n = Some x.
Proof.
  intros H. unfold node_at, world_of in *. cbn [w_nodes]. rewrite nth_error_app1; [exact H|].
  apply nth_error_Some. congruence.
Qed.

Lemma world_old_game ps j g : game_at w0 j = Some g -> game_at (W ps) j = Some g.
Proof.
  intros H. unfold game_at, world_of in *. cbn [w_games]. rewrite nth_error_app1; [exact H|].
  apply nth_error_Some. congruence.
Qed.

Lemma world_undisturbed ps : undisturbed w0 (W ps).
Proof. split; [exact (world_old ps)|exact (world_old_game ps)]. Qed.

Lemma world_game ps : game_at (W ps) i = Some (SgfTreeModel.mkGame base pr).
Proof. unfold game_at, world_of. cbn [w_games]. rewrite nth_error_app2 by (unfold i; lia). unfold i. rewrite Nat.sub_diag. reflexivity. Qed.

Definition node_of (ps : list pmap) (j : nat) : tnode :=
  mkT i (match j with O => None | S j' => Some (base + j')%nat end)
      (if Nat.eqb (S j) (List.length ps) then [] else [base + S j]%nat) (nth j ps []).

Lemma world_node ps j : (j < List.length ps)%nat -> node_at (W ps) (base + j) = Some (node_of ps j).
Proof.
  intros L. unfold node_at, world_of. cbn [w_nodes]. rewrite nth_error_app2 by (unfold base; lia).
  replace (base + j - List.length (w_nodes w0))%nat with j by (unfold base; lia).
  rewrite chain_nth by exact L. reflexivity.
Qed.

Lemma world_pres ps j : pres_of (W ps) (node_of ps j) = Some pr.
Proof. unfold pres_of, node_of. cbn [t_owner]. rewrite world_game. reflexivity. Qed.

Lemma world_put ps j m : (j < List.length ps)%nat ->
  put_props (W ps) (base + j) (node_of ps j) m = W (update j m ps).
Proof.
  intros L. unfold put_props, set_node, world_of. cbn [w_nodes w_games]. f_equal.
  replace (base + j)%nat with (List.length (w_nodes w0) + j)%nat by reflexivity.
  rewrite update_app_right. f_equal. unfold node_of, with_props. cbn [t_owner t_parent t_kids t_props].
  rewrite <- chain_update by exact L. reflexivity.
Qed.

Lemma world_set ps j k v raw : (j < List.length ps)%nat -> is_valid_property_identifier k = true -> k <> str "SZ" ->
  serialise pr k v = Ok raw ->
  set_prop (W ps) (base + j) k v = (W (update j (dset k raw (nth j ps [])) ps), Ok tt).
Proof.
  intros L V NS Se. unfold set_prop, on_node. rewrite (world_node ps j L), world_pres, V, Se. cbn [negb].
  unfold set_raw_list_core. destruct (bytes_eqb_spec k (str "SZ")) as [E|_]; [contradiction|]. cbn [andb].
  rewrite world_put by exact L. reflexivity.
Qed.

Lemma world_set_fails ps j k v e : (j < List.length ps)%nat -> is_valid_property_identifier k = true ->
  serialise pr k v = Err e -> set_prop (W ps) (base + j) k v = (W ps, Err e).
Proof.
  intros L V Se. unfold set_prop, on_node. rewrite (world_node ps j L), world_pres, V, Se. reflexivity.
Qed.

Lemma world_drop ps j ks : (j < List.length ps)%nat ->
  drop_keys (W ps) (base + j) ks = W (update j (fold_left (fun m k => ddel k m) ks (nth j ps [])) ps).
Proof. intros L. unfold drop_keys. rewrite (world_node ps j L). apply world_put. exact L. Qed.

Lemma world_last ps : ps <> [] ->
  last_node (List.length (w_nodes (W ps))) (W ps) base = Ok (base + (List.length ps - 1))%nat.
Proof.
  intros NE.
  assert (forall k j f, (List.length ps - j <= k)%nat -> (j < List.length ps)%nat -> (List.length ps - 1 - j <= f)%nat ->
            last_node f (W ps) (base + j) = Ok (base + (List.length ps - 1))%nat) as H.
  { induction k as [|k IH]; intros j f K L F; [lia|]. destruct f as [|f]; cbn [last_node]; rewrite (world_node ps j L);
      unfold node_of; cbn [t_kids]; destruct (Nat.eqb_spec (S j) (List.length ps)) as [E|E].
    - f_equal. lia.
    - lia.
    - f_equal. lia.
    - apply IH; lia. }
  replace base with (base + 0)%nat at 1 by lia. destruct ps; [congruence|].
  apply (H (List.length (p :: ps))); [lia|cbn; lia|]. rewrite world_length. lia.
Qed.

Lemma world_extend ps pres : ps <> [] ->
  extend_main_sequence (W ps) (SgfTreeModel.mkGame base pres) = (W (ps ++ [[]]), Ok tt).
Proof.
  intros NE. unfold extend_main_sequence. cbn [g_root]. rewrite world_last by exact NE.
  assert (List.length ps - 1 < List.length ps)%nat as L by (destruct ps; [congruence|cbn; lia]).
  unfold new_child, new_node. rewrite (world_node ps _ L). unfold done. f_equal.
  unfold set_node. cbn [w_nodes w_games]. unfold world_of at 3. f_equal. unfold world_of. cbn [w_nodes].
  rewrite chain_snoc by exact NE. cbv zeta. rewrite <- app_assoc.
  replace (base + (List.length ps - 1))%nat with (List.length (w_nodes w0) + (List.length ps - 1))%nat by reflexivity.
  rewrite update_app_right. f_equal.
  unfold node_of, with_kids, place_at. cbn [t_owner t_parent t_kids t_props].
  replace (S (List.length ps - 1)) with (List.length ps) by lia. rewrite Nat.eqb_refl. cbn [app].
  rewrite app_length, chain_length. reflexivity.
Qed.

(** *** Reading *)

Lemma world_raw ps j k : (j < List.length ps)%nat ->
  get_raw_list (W ps) (base + j) k = match dget k (nth j ps []) with None => Err KeyError | Some vs => Ok vs end.
Proof. intros L. unfold get_raw_list. rewrite (world_node ps j L). reflexivity. Qed.

Lemma world_has ps j k : (j < List.length ps)%nat -> has_property (W ps) (base + j) k = dmem k (nth j ps []).
Proof. intros L. unfold has_property. rewrite (world_node ps j L). reflexivity. Qed.

Lemma world_get ps j k : (j < List.length ps)%nat ->
  get_prop (W ps) (base + j) k =
  match dget k (nth j ps []) with None => Err KeyError | Some vs => interpret pr k vs end.
Proof.
  intros L. unfold get_prop. rewrite world_raw by exact L.
  destruct (dget k (nth j ps [])) as [vs|]; [|reflexivity]. cbn [bind]. rewrite (world_node ps j L), world_pres. reflexivity.
Qed.

Lemma world_tree ps : ps <> [] ->
  tree_of (W ps) base (line base (map (fun j => (base + S j)%nat) (seq 0 (List.length ps - 1)))).
Proof.
  intros NE.
  assert (forall k j, (List.length ps = S j + k)%nat ->
            tree_of (W ps) (base + j) (line (base + j) (map (fun j => (base + S j)%nat) (seq j k)))) as H.
  { induction k as [|k IH]; intros j E.
    - cbn. econstructor; [apply world_node; lia|]. unfold node_of. cbn [t_kids].
      replace (S j) with (List.length ps) by lia. rewrite Nat.eqb_refl. constructor.
    - cbn [seq map line]. econstructor; [apply world_node; lia|]. unfold node_of. cbn [t_kids].
      destruct (Nat.eqb_spec (S j) (List.length ps)) as [F|_]; [lia|]. constructor; [|constructor].
      specialize (IH (S j) ltac:(lia)). exact IH. }
  specialize (H (List.length ps - 1)%nat O). replace (base + 0)%nat with base in H by lia. apply H.
  destruct ps; [congruence|cbn; lia].
Qed.

End World.
