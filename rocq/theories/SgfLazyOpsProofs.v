(** Operations on objects as they are and on the built world (C68). *)
From Verif Require Import Base Bytes PyStr Dict SgfGrammarModel SgfGrammarSpec SgfGrammarProofs SgfTreeConvModel SgfTreeConvProofs
  CommonModel SgfPropsModel SgfTreeModel SgfTreeSpec SgfTreeProofs SgfLazyModel SgfLazySpec SgfLazyBuildProofs SgfLazyLoadProofs SgfLazyProofs.

(** ** Property operations depend on the property map and the presenter alone *)

Definition pure (n : nat) (F : world -> outcome) : Prop :=
  exists f : presenter -> pmap -> pmap * res unit, forall w x pr, node_at w n = Some x -> pres_of w x = Some pr ->
    F w = (put_props w n x (fst (f pr (t_props x))), snd (f pr (t_props x))).

Lemma put_props_id w n x : node_at w n = Some x -> put_props w n x (t_props x) = w.
Proof.
  intros E. unfold put_props, set_node, with_props. destruct w as [ns gs]. cbn [w_nodes w_games]. f_equal.
  destruct x as [o p k m]. cbn. apply update_same. exact E.
Qed.
Lemma put_props_node w n x m : node_at w n = Some x -> node_at (put_props w n x m) n = Some (with_props m x).
Proof.
  intros E. unfold put_props, set_node, node_at. cbn [w_nodes]. rewrite nth_update by (apply nth_error_Some; unfold node_at in E; congruence).
  rewrite Nat.eqb_refl. reflexivity.
Qed.
Lemma put_props_twice w n x m m' : put_props (put_props w n x m) n (with_props m x) m' = put_props w n x m'.
Proof. unfold put_props, set_node. cbn [w_nodes w_games]. rewrite update_twice. reflexivity. Qed.
Lemma put_props_pres w n x m : pres_of (put_props w n x m) (with_props m x) = pres_of w x.
Proof. reflexivity. Qed.

Lemma pure_then n F1 F2 : pure n F1 -> pure n F2 -> pure n (fun w => then_do (F1 w) F2).
Proof.
  intros (f1 & H1) (f2 & H2).
  exists (fun pr m => match f1 pr m with (m1, Ok _) => f2 pr m1 | (m1, Err e) => (m1, Err e) end).
  intros w x pr E P. rewrite (H1 w x pr E P). destruct (f1 pr (t_props x)) as [m1 [u|e]] eqn:E1; cbn [fst snd then_do].
  - rewrite (H2 _ (with_props m1 x) pr); [|apply put_props_node; auto|exact P]. cbn [with_props t_props]. rewrite put_props_twice. reflexivity.
  - reflexivity.
Qed.
Lemma pure_after n G F : (forall w x, node_at w n = Some x -> exists m, G w = put_props w n x m) ->
  (exists f : pmap -> pmap, forall w x, node_at w n = Some x -> G w = put_props w n x (f (t_props x))) -> pure n F -> pure n (fun w => F (G w)).
Proof.
  intros _ (f & Hf) (h & Hh). exists (fun pr m => h pr (f m)). intros w x pr E P. rewrite (Hf w x E).
  rewrite (Hh _ (with_props (f (t_props x)) x) pr); [|apply put_props_node; auto|exact P]. cbn [with_props t_props]. rewrite put_props_twice. reflexivity.
Qed.
Lemma pure_done n : pure n done.
Proof. exists (fun pr m => (m, Ok tt)). intros w x pr E P. cbn. rewrite put_props_id by auto. reflexivity. Qed.
Lemma pure_raise n e : pure n (fun w => raise w e).
Proof. exists (fun pr m => (m, Err e)). intros w x pr E P. cbn. rewrite put_props_id by auto. reflexivity. Qed.
Lemma pure_drop n ks F : pure n F -> pure n (fun w => F (drop_keys w n ks)).
Proof.
  intros H. apply pure_after; auto.
  - intros w x E. unfold drop_keys. rewrite E. eauto.
  - exists (fun m => fold_left (fun m k => ddel k m) ks m). intros w x E. unfold drop_keys. rewrite E. reflexivity.
Qed.

Definition core_fun (k : bytes) (vs : list bytes) (pr : presenter) (m : pmap) : pmap * res unit :=
  if bytes_eqb k (str "SZ") && negb (match vs with [v] => bytes_eqb v (str_int (c_size (pr_context pr))) | _ => false end)
  then (m, Err ValueError) else (dset k vs m, Ok tt).
Lemma core_eq w n x pr k vs : node_at w n = Some x -> set_raw_list_core w n x pr k vs =
  (put_props w n x (fst (core_fun k vs pr (t_props x))), snd (core_fun k vs pr (t_props x))).
Proof.
  intros E. unfold set_raw_list_core, core_fun. destruct (_ && _); cbn [fst snd]; [rewrite put_props_id by auto|]; reflexivity.
Qed.

Ltac pure_node := intros w x pr E P; unfold on_node; rewrite E, P.
Ltac no_change := cbn [fst snd]; rewrite put_props_id by assumption; reflexivity.

Lemma pure_set_raw_list n k vs : pure n (fun w => set_raw_list w n k vs).
Proof.
  exists (fun pr m => if negb (is_valid_property_identifier k) then (m, Err ValueError)
    else match vs with [] => (m, Err ValueError) | _ => if forallb is_valid_property_value vs then core_fun k vs pr m else (m, Err ValueError) end).
  unfold set_raw_list. pure_node. destruct (negb _); [no_change|]. destruct vs as [|v vs]; [no_change|].
  destruct (forallb _ _); [apply core_eq; auto|no_change].
Qed.
Lemma pure_set_raw n k v : pure n (fun w => set_raw w n k v).
Proof.
  exists (fun pr m => if negb (is_valid_property_identifier k) then (m, Err ValueError)
    else if negb (is_valid_property_value v) then (m, Err ValueError) else core_fun k [v] pr m).
  unfold set_raw. pure_node. destruct (negb _); [no_change|]. destruct (negb _); [no_change|apply core_eq; auto].
Qed.
Definition set_fun (k : bytes) (v : pvalue) (pr : presenter) (m : pmap) : pmap * res unit :=
  if negb (is_valid_property_identifier k) then (m, Err ValueError)
  else match serialise pr k v with Err e => (m, Err e) | Ok vs => core_fun k vs pr m end.
Lemma set_prop_eq w n x pr k v : node_at w n = Some x -> pres_of w x = Some pr ->
  set_prop w n k v = (put_props w n x (fst (set_fun k v pr (t_props x))), snd (set_fun k v pr (t_props x))).
Proof.
  intros E P. unfold set_prop, set_fun, on_node. rewrite E, P. destruct (negb _); [no_change|].
  destruct (serialise pr k v); [apply core_eq; auto|no_change].
Qed.
Lemma pure_set_prop n k v : pure n (fun w => set_prop w n k v).
Proof. exists (set_fun k v). intros w x pr E P. apply set_prop_eq; auto. Qed.
Lemma pure_unset n k : pure n (fun w => unset w n k).
Proof.
  exists (fun pr m => if bytes_eqb k (str "SZ") && negb (c_size (pr_context pr) =? 19) then (m, Err ValueError)
    else if dmem k m then (ddel k m, Ok tt) else (m, Err KeyError)).
  unfold unset. pure_node. destruct (_ && _); [no_change|]. destruct (dmem k (t_props x)); [reflexivity|no_change].
Qed.
Lemma pure_set_points n k l : pure n (fun w => set_points w n k l).
Proof. unfold set_points. destruct l as [|p l]; [apply pure_done|apply pure_set_prop]. Qed.
Lemma pure_set_move n c m : pure n (fun w => set_move w n c m).
Proof. unfold set_move. apply (pure_drop n _ (fun w => set_prop w n (move_key c) (move_value m))). apply pure_set_prop. Qed.
Lemma pure_set_setup n b wh e : pure n (fun w => set_setup_stones w n b wh e).
Proof.
  unfold set_setup_stones. apply (pure_then n (fun w => set_points (drop_keys w n [str "AB"; str "AW"; str "AE"]) n (str "AB") b)).
  - apply (pure_drop n _ (fun w => set_points w n (str "AB") b)). apply pure_set_points.
  - apply (pure_then n (fun w => set_points w n (str "AW") wh) (fun w => set_points w n (str "AE") e)); apply pure_set_points.
Qed.
Lemma pure_add_comment n t : pure n (fun w => add_comment_text w n t).
Proof.
  exists (fun pr m => if dmem (str "C") m then
      match (do vs <- (match dget (str "C") m with None => Err KeyError | Some vs => Ok vs end); interpret pr (str "C") vs) with
      | Err e => (m, Err e)
      | Ok (VText old) => set_fun (str "C") (VText (old ++ [char_lf; char_lf] ++ t)) pr m
      | Ok _ => (m, Err TypeError)
      end else set_fun (str "C") (VText t) pr m).
  intros w x pr E P. unfold add_comment_text, has_property, get_prop, get_raw_list. rewrite E, P.
  destruct (dmem (str "C") (t_props x)); [|apply set_prop_eq; auto].
  destruct (do vs <- _; interpret pr (str "C") vs) as [v|e]; [|no_change]. destruct v; try no_change. apply set_prop_eq; auto.
Qed.

Lemma pure_exec o n : on_properties (Do o) = true -> op_nodes o = [n] -> pure n (fun w => exec w o).
Proof.
  intros OP ON. destruct o; cbn in OP, ON; try discriminate; injection ON as ->; cbn [exec].
  - apply pure_set_raw_list.
  - apply pure_set_raw.
  - apply pure_set_prop.
  - apply pure_unset.
  - apply pure_set_move.
  - apply pure_set_setup.
  - apply pure_add_comment.
Qed.

(** ** Two worlds that differ only in the links of some games' nodes *)

Record sim (G : nat -> bool) (w1 w2 : world) : Prop := mkSim {
  sim_games : w_games w1 = w_games w2;
  sim_len : List.length (w_nodes w1) = List.length (w_nodes w2);
  sim_node : forall n x1 x2, node_at w1 n = Some x1 -> node_at w2 n = Some x2 ->
    t_owner x1 = t_owner x2 /\ t_props x1 = t_props x2 /\ (G (t_owner x1) = true -> x1 = x2)
}.

Lemma sim_at G w1 w2 n x1 : sim G w1 w2 -> node_at w1 n = Some x1 -> exists x2, node_at w2 n = Some x2.
Proof.
  intros S E. destruct (node_at w2 n) as [x2|] eqn:E2; eauto. exfalso. unfold node_at in *. apply nth_error_None in E2.
  assert (nth_error (w_nodes w1) n <> None) as H by congruence. apply nth_error_Some in H. rewrite (sim_len _ _ _ S) in H. lia.
Qed.
Lemma sim_sym G w1 w2 : sim G w1 w2 -> sim G w2 w1.
Proof.
  intros [A B C]. constructor; auto. intros n x1 x2 E1 E2. destruct (C _ _ _ E2 E1) as (D1 & D2 & D3). repeat split; auto.
  intros H. symmetry. apply D3. congruence.
Qed.
Lemma sim_pres G w1 w2 n x1 x2 : sim G w1 w2 -> node_at w1 n = Some x1 -> node_at w2 n = Some x2 -> pres_of w1 x1 = pres_of w2 x2.
Proof.
  intros S E1 E2. unfold pres_of, game_at. rewrite (sim_games _ _ _ S). destruct (sim_node _ _ _ S _ _ _ E1 E2) as (-> & _). reflexivity.
Qed.

Record step_ok (G : nat -> bool) (w1 w1' w2 w2' : world) : Prop := mkStep {
  so_games : w_games w1' = w_games w2';
  so_keep : forall g y, game_at w1 g = Some y -> exists y', game_at w1' g = Some y' /\ g_root y' = g_root y;
  so_len : List.length (w_nodes w1') = List.length (w_nodes w2');
  so_old : forall n x1 x2, node_at w1 n = Some x1 -> node_at w2 n = Some x2 -> exists x1' x2',
    node_at w1' n = Some x1' /\ node_at w2' n = Some x2' /\ t_owner x1' = t_owner x1 /\ t_owner x2' = t_owner x1 /\
    t_props x1' = t_props x2' /\ (G (t_owner x1) = true -> x1' = x2') /\
    (G (t_owner x1) = false -> (t_parent x1', t_kids x1') = (t_parent x1, t_kids x1) /\ (t_parent x2', t_kids x2') = (t_parent x2, t_kids x2));
  so_new : forall n x1', node_at w1 n = None -> node_at w1' n = Some x1' ->
    node_at w2' n = Some x1' /\ (exists y, game_at w1' (t_owner x1') = Some y) /\ (G (t_owner x1') = true \/ game_at w1 (t_owner x1') = None)
}.

Lemma step_refl G w1 w2 : sim G w1 w2 -> step_ok G w1 w1 w2 w2.
Proof.
  intros S. constructor; try apply S; eauto.
  - intros n x1 x2 E1 E2. destruct (sim_node _ _ _ S _ _ _ E1 E2) as (A & B & C). exists x1, x2. repeat split; auto.
  - congruence.
Qed.

Lemma set_node_at w n y m : (n < List.length (w_nodes w))%nat -> node_at (set_node w n y) m = if Nat.eqb n m then Some y else node_at w m.
Proof. intros H. unfold node_at, set_node. cbn [w_nodes]. apply nth_update. exact H. Qed.
Lemma node_lt w n x : node_at w n = Some x -> (n < List.length (w_nodes w))%nat.
Proof. intros E. apply nth_error_Some. unfold node_at in E. congruence. Qed.

Lemma step_props G w1 w2 n x1 x2 m : sim G w1 w2 -> node_at w1 n = Some x1 -> node_at w2 n = Some x2 ->
  step_ok G w1 (put_props w1 n x1 m) w2 (put_props w2 n x2 m).
Proof.
  intros S E1 E2. pose proof (node_lt _ _ _ E1) as L1. pose proof (node_lt _ _ _ E2) as L2. constructor.
  - apply S.
  - intros g y E. exists y. auto.
  - unfold put_props, set_node. cbn [w_nodes]. rewrite !update_length. apply S.
  - intros k y1 y2 A1 A2. unfold put_props. rewrite !set_node_at by auto. destruct (sim_node _ _ _ S _ _ _ A1 A2) as (O & P & Q).
    destruct (Nat.eqb_spec n k) as [->|N].
    + rewrite E1 in A1. injection A1 as <-. rewrite E2 in A2. injection A2 as <-. exists (with_props m x1), (with_props m x2). cbn. repeat split; auto.
      intros H. rewrite (Q H). reflexivity.
    + exists y1, y2. repeat split; auto.
  - intros k y1 A1 A2. unfold put_props in *. rewrite set_node_at in A2 by auto. destruct (Nat.eqb_spec n k) as [->|N]; congruence.
Qed.

Lemma exec_props G w1 w2 o n : sim G w1 w2 -> on_properties (Do o) = true -> op_nodes o = [n] ->
  (exists x, node_at w1 n = Some x) -> (forall x, node_at w1 n = Some x -> exists pr, pres_of w1 x = Some pr) ->
  exists w1' w2' r, exec w1 o = (w1', r) /\ exec w2 o = (w2', r) /\ step_ok G w1 w1' w2 w2'.
Proof.
  intros S OP ON (x1 & E1) HP. destruct (HP _ E1) as (pr & P1). destruct (sim_at _ _ _ _ _ S E1) as (x2 & E2).
  destruct (pure_exec o n OP ON) as (f & Hf). rewrite (Hf w1 x1 pr E1 P1).
  rewrite (Hf w2 x2 pr E2) by (rewrite <- (sim_pres _ _ _ _ _ _ S E1 E2); exact P1).
  destruct (sim_node _ _ _ S _ _ _ E1 E2) as (_ & EP & _). rewrite <- EP. do 3 eexists. split; [reflexivity|]. split; [reflexivity|].
  apply step_props; auto.
Qed.

(** *** Presenters *)
Lemma exec_presenter G w1 w2 g f : sim G w1 w2 -> (exists y, game_at w1 g = Some y) ->
  exists w1' w2' r, set_presenter w1 g f = (w1', r) /\ set_presenter w2 g f = (w2', r) /\ step_ok G w1 w1' w2 w2'.
Proof.
  intros S (y & E). unfold set_presenter. assert (game_at w2 g = Some y) as E2 by (unfold game_at in *; rewrite <- (sim_games _ _ _ S); exact E).
  rewrite E, E2. destruct (f (g_pres y)) as [p|e].
  2: { do 3 eexists. split; [reflexivity|]. split; [reflexivity|]. apply step_refl; auto. }
  do 3 eexists. split; [reflexivity|]. split; [reflexivity|]. constructor; cbn [w_nodes w_games].
  - rewrite (sim_games _ _ _ S). reflexivity.
  - intros h z Ez. unfold game_at. cbn [w_games]. rewrite nth_update by (apply nth_error_Some; unfold game_at in E; congruence).
    destruct (Nat.eqb_spec g h) as [->|N]; [|eauto]. rewrite E in Ez. injection Ez as <-. eexists. split; reflexivity.
  - apply S.
  - intros n x1 x2 E1 E3. destruct (sim_node _ _ _ S _ _ _ E1 E3) as (A & B & C). exists x1, x2. repeat split; auto.
  - intros n x1 N1 N2. unfold node_at in *. cbn [w_nodes] in N2. congruence.
Qed.

(** *** New games *)
Lemma exec_new_game G w1 w2 size e : sim G w1 w2 ->
  exists w1' w2' r, new_game w1 size e = (w1', r) /\ new_game w2 size e = (w2', r) /\ step_ok G w1 w1' w2 w2'.
Proof.
  intros S. unfold new_game. destruct (negb _).
  { do 3 eexists. split; [reflexivity|]. split; [reflexivity|]. apply step_refl; auto. }
  rewrite <- (sim_len _ _ _ S). set (root := List.length (w_nodes w1)).
  assert (pure root (fun w => then_do (set_raw w root (str "FF") (str "4")) (fun w1 =>
    then_do (set_raw w1 root (str "GM") (str "1")) (fun w2 => then_do (set_raw w2 root (str "SZ") (str_int size)) (fun w3 =>
    set_raw w3 root (str "CA") (encoding_name e)))))) as (f & Hf).
  { apply pure_then; [apply pure_set_raw|]. apply (pure_then root (fun w => set_raw w root (str "GM") (str "1"))); [apply pure_set_raw|].
    apply (pure_then root (fun w => set_raw w root (str "SZ") (str_int size))); apply pure_set_raw. }
  set (x := mkT (List.length (w_games w1)) None [] []).
  assert (node_at (alloc_game w1 size e []) root = Some x) as E1.
  { unfold node_at, alloc_game. cbn [w_nodes]. rewrite nth_error_app2 by (unfold root; lia). unfold root. rewrite Nat.sub_diag. reflexivity. }
  assert (node_at (alloc_game w2 size e []) root = Some x) as E2.
  { unfold node_at, alloc_game. cbn [w_nodes]. rewrite <- (sim_games _ _ _ S). rewrite nth_error_app2 by (unfold root; rewrite (sim_len _ _ _ S); lia).
    unfold root. rewrite (sim_len _ _ _ S), Nat.sub_diag. reflexivity. }
  assert (forall w, w_games w = w_games w1 -> pres_of (alloc_game w size e []) x = Some (new_presenter size e)) as PP.
  { intros w Ew. unfold pres_of, game_at, alloc_game. cbn [w_games t_owner x]. rewrite Ew, nth_error_app2 by lia. rewrite Nat.sub_diag. reflexivity. }
  rewrite (Hf _ x _ E1 (PP w1 eq_refl)), (Hf _ x _ E2 (PP w2 (eq_sym (sim_games _ _ _ S)))).
  do 3 eexists. split; [reflexivity|]. split; [reflexivity|]. set (m := fst _).
  assert (forall w k, (List.length (w_nodes w) = root) -> node_at (alloc_game w size e []) root = Some x ->
     node_at (put_props (alloc_game w size e []) root x m) k = if Nat.eqb root k then Some (with_props m x) else node_at w k) as NA.
  { intros w k L E. unfold put_props. rewrite set_node_at by (eapply node_lt; eauto). destruct (Nat.eqb_spec root k) as [|N]; auto.
    unfold node_at, alloc_game. cbn [w_nodes]. destruct (Nat.lt_ge_cases k root).
    - apply nth_error_app1. lia.
    - rewrite nth_error_app2 by lia. transitivity (@None tnode); [apply nth_error_None; cbn; lia|symmetry; apply nth_error_None; lia]. }
  pose proof (eq_sym (sim_len _ _ _ S)) as L2. fold root in L2. constructor.
  - unfold put_props, set_node, alloc_game. cbn [w_games]. rewrite (sim_games _ _ _ S), (sim_len _ _ _ S). reflexivity.
  - intros g y Ey. exists y. split; auto. unfold game_at, put_props, set_node, alloc_game. cbn [w_games]. rewrite nth_error_app1; auto.
    apply nth_error_Some. unfold game_at in Ey. congruence.
  - unfold put_props, set_node, alloc_game. cbn [w_nodes]. rewrite !update_length, !app_length, L2. reflexivity.
  - intros k y1 y2 A1 A2. pose proof (node_lt _ _ _ A1). rewrite !NA by auto.
    destruct (Nat.eqb_spec root k); [unfold root in *; lia|]. destruct (sim_node _ _ _ S _ _ _ A1 A2) as (A & B & C). exists y1, y2. repeat split; auto.
  - intros k y1 A1 A2. rewrite NA in A2 by auto. rewrite NA by auto. destruct (Nat.eqb_spec root k) as [->|]; [|congruence].
    injection A2 as <-. split; auto. split.
    + eexists. unfold game_at, put_props, set_node, alloc_game. cbn [w_games with_props t_owner x]. rewrite nth_error_app2 by lia. rewrite Nat.sub_diag. reflexivity.
    + right. cbn. apply nth_error_None. lia.
Qed.

(** *** Tree editing *)

(** The nodes a program edits: of a built game. *)
Definition live (G : nat -> bool) (w : world) (n : nat) : Prop := exists x, node_at w n = Some x /\ G (t_owner x) = true.

Lemma live_eq G w1 w2 n : sim G w1 w2 -> live G w1 n -> node_at w1 n = node_at w2 n.
Proof.
  intros S (x & E & H). destruct (sim_at _ _ _ _ _ S E) as (x2 & E2). destruct (sim_node _ _ _ S _ _ _ E E2) as (_ & _ & Q).
  rewrite E, E2. f_equal. auto.
Qed.

(** Changing the links of a live node in the same way. *)
Lemma step_links G w1 w2 w1' w2' n y : sim G w1 w2 -> step_ok G w1 w1' w2 w2' ->
  (exists x, node_at w1 n = Some x /\ G (t_owner x) = true /\ t_owner y = t_owner x) ->
  step_ok G w1 (set_node w1' n y) w2 (set_node w2' n y).
Proof.
  intros S SO (x & Ex & Gx & Oy). destruct (sim_at _ _ _ _ _ S Ex) as (x2 & Ex2).
  destruct (so_old _ _ _ _ _ SO _ _ _ Ex Ex2) as (x1' & x2' & E1' & E2' & _).
  pose proof (node_lt _ _ _ E1') as L1. pose proof (node_lt _ _ _ E2') as L2. constructor.
  - apply SO.
  - apply SO.
  - unfold set_node. cbn [w_nodes]. rewrite !update_length. apply SO.
  - intros k y1 y2 A1 A2. destruct (so_old _ _ _ _ _ SO _ _ _ A1 A2) as (z1 & z2 & B1 & B2 & B3 & B4 & B5 & B6 & B7).
    rewrite !set_node_at by auto. destruct (Nat.eqb_spec n k) as [->|N]; [|exists z1, z2; repeat split; auto; apply B7; auto].
    rewrite Ex in A1. injection A1 as <-. exists y, y. split; [reflexivity|]. split; [reflexivity|]. split; [exact Oy|]. split; [exact Oy|]. split; [reflexivity|].
    split; [reflexivity|congruence].
  - intros k y1 A1 A2. rewrite set_node_at in A2 by auto. rewrite set_node_at by auto. destruct (Nat.eqb_spec n k) as [->|N]; [congruence|].
    apply SO; auto.
Qed.

Lemma exec_new_child G w1 w2 p index : sim G w1 w2 -> wf w2 -> live G w1 p ->
  exists w1' w2' r, new_child w1 p index = (w1', r) /\ new_child w2 p index = (w2', r) /\ step_ok G w1 w1' w2 w2'.
Proof.
  intros S W L. pose proof (live_eq _ _ _ _ S L) as EQ. destruct L as (x & E & H).
  unfold new_child, new_node. rewrite <- EQ, E. do 3 eexists. split; [reflexivity|]. split; [reflexivity|].
  rewrite <- (sim_len _ _ _ S). apply step_links; auto; [|exists x; auto]. set (nw := mkT (t_owner x) (Some p) [] []).
  constructor; cbn [w_nodes w_games].
  - apply S.
  - intros g y Ey. exists y. auto.
  - rewrite !app_length, (sim_len _ _ _ S). reflexivity.
  - intros k y1 y2 A1 A2. exists y1, y2. unfold node_at in *. cbn [w_nodes]. rewrite !nth_error_app1 by (apply nth_error_Some; congruence).
    destruct (sim_node _ _ _ S _ _ _ A1 A2) as (A & B & C). repeat split; auto.
  - intros k y1 A1 A2. unfold node_at in *. cbn [w_nodes] in *. rewrite nth_snoc in A2. rewrite nth_snoc. rewrite <- (sim_len _ _ _ S).
    destruct (Nat.eqb k (List.length (w_nodes w1))); [|congruence]. injection A2 as <-. split; auto. split; [|left; exact H].
    destruct (sim_at G w1 w2 p x S E) as (x2 & E2). destruct (wf_owner _ W _ _ E2) as (g & Eg).
    destruct (sim_node _ _ _ S _ _ _ E E2) as (O & _). exists g. unfold game_at in *. cbn [w_games t_owner nw]. rewrite (sim_games _ _ _ S), O. exact Eg.
Qed.

(** Roots of games that aren't built have no parent in either world. *)
Definition usable (G : nat -> bool) (w1 w2 : world) (n : nat) : Prop :=
  live G w1 n \/
  (exists x1 x2 g, node_at w1 n = Some x1 /\ node_at w2 n = Some x2 /\ t_parent x1 = None /\ t_parent x2 = None /\
     G (t_owner x1) = false /\ game_at w2 (t_owner x1) = Some g /\ g_root g = n).

Lemma live_parent G w1 w2 n x p : sim G w1 w2 -> wf w2 -> node_at w1 n = Some x -> G (t_owner x) = true -> t_parent x = Some p ->
  exists y, node_at w1 p = Some y /\ G (t_owner y) = true /\ t_owner y = t_owner x.
Proof.
  intros S W E H P. assert (node_at w2 n = Some x) as E2 by (rewrite <- (live_eq _ _ _ n S) by (exists x; auto); exact E).
  destruct (wf_parent _ W _ _ _ E2 P) as (y & Ey & Oy). destruct (sim_at _ _ _ _ _ (sim_sym _ _ _ S) Ey) as (y1 & Ey1).
  destruct (sim_node _ _ _ S _ _ _ Ey1 Ey) as (O & _). exists y1. split; auto. split; congruence.
Qed.

Lemma exec_unlink G w1 w2 n p y : sim G w1 w2 -> node_at w1 p = Some y -> G (t_owner y) = true ->
  match unlink w1 n p, unlink w2 n p with
  | Ok w1', Ok w2' => step_ok G w1 w1' w2 w2'
  | Err e, Err e' => e = e'
  | _, _ => False
  end.
Proof.
  intros S E H. unfold unlink. rewrite <- (live_eq G w1 w2 p S) by (exists y; auto). rewrite E.
  destruct (py_remove n (t_kids y)); auto. apply step_links; auto; [apply step_refl; auto|exists y; auto].
Qed.

Lemma exec_delete G w1 w2 n : sim G w1 w2 -> wf w2 -> usable G w1 w2 n ->
  exists w1' w2' r, delete w1 n = (w1', r) /\ delete w2 n = (w2', r) /\ step_ok G w1 w1' w2 w2'.
Proof.
  intros S W [L|(x1 & x2 & g & E1 & E2 & P1 & P2 & _)].
  2: { unfold delete. rewrite E1, E2, P1, P2. do 3 eexists. split; [reflexivity|]. split; [reflexivity|]. apply step_refl; auto. }
  pose proof (live_eq _ _ _ _ S L) as EQ. destruct L as (x & E & H). unfold delete. rewrite <- EQ, E.
  destruct (t_parent x) as [p|] eqn:P.
  2: { do 3 eexists. split; [reflexivity|]. split; [reflexivity|]. apply step_refl; auto. }
  destruct (live_parent _ _ _ _ _ _ S W E H P) as (y & Ey & Gy & _). pose proof (exec_unlink _ _ _ n p y S Ey Gy) as U.
  destruct (unlink w1 n p), (unlink w2 n p); try contradiction; [|subst e0]; do 3 eexists; (split; [reflexivity|]; split; [reflexivity|]); auto. apply step_refl; auto.
Qed.

Lemma walk_eq G w1 w2 self : sim G w1 w2 -> wf w2 -> forall fuel n, live G w1 n -> walk_meets fuel w1 n self = walk_meets fuel w2 n self.
Proof.
  intros S W. induction fuel as [|fuel IH]; intros n L; cbn [walk_meets]; destruct (Nat.eqb n self); auto;
    rewrite <- (live_eq _ _ _ _ S L); destruct L as (x & E & H); rewrite E; destruct (t_parent x) as [p|] eqn:P; auto.
  destruct (live_parent _ _ _ _ _ _ S W E H P) as (y & Ey & Gy & _). apply IH. exists y. auto.
Qed.

Lemma walk_self fuel w n : walk_meets fuel w n n = Ok true.
Proof. destruct fuel; cbn [walk_meets]; rewrite Nat.eqb_refl; reflexivity. Qed.

Lemma exec_reparent G w1 w2 n np index : sim G w1 w2 -> wf w2 -> usable G w1 w2 n -> usable G w1 w2 np ->
  exists w1' w2' r, reparent w1 n np index = (w1', r) /\ reparent w2 n np index = (w2', r) /\ step_ok G w1 w1' w2 w2'.
Proof.
  intros S W U1 U2.
  assert (exists x1 x2, node_at w1 n = Some x1 /\ node_at w2 n = Some x2) as (x1 & x2 & E1 & E2).
  { destruct U1 as [(x & E & _)|(x1 & x2 & g & E1 & E2 & _)]; [destruct (sim_at _ _ _ _ _ S E); eauto|eauto]. }
  assert (exists y1 y2, node_at w1 np = Some y1 /\ node_at w2 np = Some y2) as (y1 & y2 & F1 & F2).
  { destruct U2 as [(x & E & _)|(a1 & a2 & g & A1 & A2 & _)]; [destruct (sim_at _ _ _ _ _ S E); eauto|eauto]. }
  destruct (sim_node _ _ _ S _ _ _ E1 E2) as (O1 & _ & Q1). destruct (sim_node _ _ _ S _ _ _ F1 F2) as (O2 & _ & Q2).
  unfold reparent. rewrite E1, E2, F1, F2, <- O1, <- O2.
  destruct (Nat.eqb_spec (t_owner y1) (t_owner x1)) as [EO|NO]; cbn [negb].
  2: { do 3 eexists. split; [reflexivity|]. split; [reflexivity|]. apply step_refl; auto. }
  rewrite <- (sim_len _ _ _ S). destruct (G (t_owner x1)) eqn:Gx.
  - assert (live G w1 np) as Lp by (exists y1; rewrite EO; auto).
    rewrite <- (walk_eq G w1 w2 n S W _ _ Lp).
    destruct (walk_meets _ w1 np n) as [[|]|e]; [do 3 eexists; (split; [reflexivity|]; split; [reflexivity|]); apply step_refl; auto| |
      do 3 eexists; (split; [reflexivity|]; split; [reflexivity|]); apply step_refl; auto].
    rewrite <- (Q1 eq_refl). destruct (t_parent x1) as [p|] eqn:P.
    2: { do 3 eexists. split; [reflexivity|]. split; [reflexivity|]. apply step_refl; auto. }
    destruct (live_parent _ _ _ _ _ _ S W E1 Gx P) as (z & Ez & Gz & Oz). pose proof (exec_unlink _ _ _ n p z S Ez Gz) as UU.
    destruct (unlink w1 n p) as [v1|e1], (unlink w2 n p) as [v2|e2]; try contradiction.
    2: { subst e2. do 3 eexists. split; [reflexivity|]. split; [reflexivity|]. apply step_refl; auto. }
    destruct (so_old _ _ _ _ _ UU _ _ _ E1 E2) as (a1 & a2 & A1 & A2 & A3 & A4 & A5 & A6 & _).
    rewrite A1, A2. specialize (A6 Gx). subst a2.
    assert (step_ok G w1 (set_node v1 n (with_parent np a1)) w2 (set_node v2 n (with_parent np a1))) as S2.
    { apply step_links; auto. exists x1. auto. }
    destruct (so_old _ _ _ _ _ S2 _ _ _ F1 F2) as (b1 & b2 & B1 & B2 & B3 & B4 & B5 & B6 & _).
    rewrite B1, B2. rewrite EO in B6. specialize (B6 Gx). subst b2.
    do 3 eexists. split; [reflexivity|]. split; [reflexivity|]. apply step_links; auto. exists y1. rewrite EO. repeat split; auto. cbn. congruence.
  - destruct U1 as [(x & E & H)|(c1 & c2 & g & C1 & C2 & _ & _ & _ & Cg & Cr)]; [congruence|].
    destruct U2 as [(x & E & H)|(d1 & d2 & h & D1 & D2 & _ & _ & _ & Dg & Dr)].
    + rewrite F1 in E. injection E as <-. congruence.
    + assert (np = n) as ->.
      { assert (c1 = x1) by congruence. assert (d1 = y1) by congruence. subst c1 d1. rewrite EO in Dg. rewrite Cg in Dg. injection Dg as <-. congruence. }
      rewrite !walk_self. do 3 eexists. split; [reflexivity|]. split; [reflexivity|]. apply step_refl; auto.
Qed.
