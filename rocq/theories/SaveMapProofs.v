(** Proofs about saving a game (C63): the property maps that are built. *)
From Verif Require Import Base Bytes PyStr Dict BoardModel BoardSpec BoardProofs BoardMainProofs CommonModel SgfGrammarModel SgfGrammarSpec
  SgfTreeConvModel SgfGrammarProofs SgfTextProofs SgfPropsModel SgfPropsSpec SgfValueSpec SgfValueProofs SgfTypeErrorProofs
  SgfTreeModel SgfTreeSpec SgfTreeProofs SgfNodeProofs SgfGameProofs SgfTreeMainProofs SgfSaveProofs SgfMovesModel SgfMovesSpec SgfMovesProofs GameplayModel GameSgfModel GameSgfSpec
  SgfChainProofs GameSgfProofs GameSgfDocProofs GameSgfMainProofs GameSgfReadProofs GtpModel GtpStateModel SaveModel SaveSpec SaveProofs.

Lemma given_snoc opts k v k' : value_given (opts ++ [(k, v)]) k' = if bytes_eqb k' k then Some v else value_given opts k'.
Proof. unfold value_given. rewrite rev_app_distr. reflexivity. Qed.

Lemma given_In opts k v : value_given opts k = Some v -> In k (names opts).
Proof.
  unfold value_given, names. intros H. rewrite <- (rev_involutive opts), map_rev. rewrite <- in_rev.
  revert H. generalize (rev opts). intros l. induction l as [|[a b] l IH]; cbn [dget]; [discriminate|].
  destruct (bytes_eqb_spec k a) as [->|]; [left; reflexivity|]. right. auto.
Qed.

Lemma not_given opts k : ~ In k (names opts) -> value_given opts k = None.
Proof. intros N. destruct (value_given opts k) eqn:E; [|reflexivity]. apply given_In in E. contradiction. Qed.

Section Maps.
Variables (size : Z).
Hypothesis (HS : 1 <= size <= 25).
Notation pr := (new_presenter size UTF_8).
Notation W := (world_of empty_world pr).

Definition root_map (c : content) (opts : list (bytes * bytes)) (m : pmap) : Prop :=
  forall k,
    match value_given opts k with
    | Some v => dget k m = Some [escape_text v]
    | None =>
        match dget k (ct_props c) with
        | Some (t, v) => exists raw, dget k m = Some raw /\ stands size k t v raw
        | None => dget k m = None
        end
    end.

Lemma root_start c m : content_map size c m -> ct_remark c = None -> dget (str "C") (ct_props c) = None -> root_map c [] m.
Proof.
  intros (A & B) N N' k. change (value_given [] k) with (@None bytes). cbv iota. destruct (bytes_eqb_spec k (str "C")) as [->|NC].
  - replace (dget (str "C") (ct_props c)) with (@None (ptype * pvalue)) by (symmetry; exact N'). rewrite N in B. exact B.
  - apply A. exact NC.
Qed.

Lemma root_put c opts m k t v raw : root_map c opts m -> value_given opts k = None -> stands size k t v raw ->
  root_map (put k t v c) opts (dset k raw m).
Proof.
  intros H N S k'. specialize (H k'). destruct (bytes_eqb_spec k' k) as [->|NE].
  - rewrite N. cbn [put ct_props dget]. rewrite bytes_eqb_refl. exists raw. split; [apply dget_dset_same|exact S].
  - rewrite dget_dset_other by exact NE. destruct (value_given opts k'); [exact H|]. cbn [put ct_props dget].
    destruct (bytes_eqb_spec k' k); [contradiction|]. exact H.
Qed.

Lemma root_drop c opts m k : root_map c opts m -> value_given opts k = None -> dget k (ct_props c) = None ->
  root_map c opts (ddel k m).
Proof.
  intros H N D k'. specialize (H k'). rewrite dget_ddel. destruct (bytes_eqb_spec k' k) as [->|NE]; [|exact H].
  rewrite N, D. reflexivity.
Qed.

Lemma root_option c opts m k v : root_map c opts m -> root_map c (opts ++ [(k, v)]) (dset k [escape_text v] m).
Proof.
  intros H k'. specialize (H k'). rewrite given_snoc, dget_dset. destruct (bytes_eqb k' k); [reflexivity|exact H].
Qed.

Lemma root_same c opts m m' : same_node m m' -> root_map c opts m -> root_map c opts m'.
Proof.
  intros S H k. specialize (H k). assert (dget k m' = dget k m) as -> by (rewrite <- !lookup_dget; symmetry; apply S). exact H.
Qed.

(** ** The steps *)

Lemma keeps_raw w n k v : reachable_world w -> (n < List.length (w_nodes w))%nat -> keeps w (set_raw w n k v).
Proof. intros R L. eapply (keeps_edits w n _ (SetRaw n k v)); eauto. apply set_raw_edits; auto using wf_of. Qed.

Lemma root_lt m ps : (0 < List.length (w_nodes (W (m :: ps))))%nat.
Proof. rewrite world_length. cbn. lia. Qed.

Lemma options_ok args opts : Forall2 option_arg args opts -> ~ In (str "SZ") (names opts) ->
  forall c o m, reachable_world (W [m]) -> root_map c o m ->
  exists m', set_options (W [m]) 0 args = (W [m'], GOk tt) /\ reachable_world (W [m']) /\ root_map c (o ++ opts) m'.
Proof.
  induction 1 as [|arg [k v] args opts A F IH]; intros N c o m R M.
  { exists m. rewrite app_nil_r. split; [reflexivity|]. auto. }
  cbn [set_options]. rewrite (option_read _ _ _ A).
  assert (set_raw (W [m]) 0 k (escape_text v) = (W [dset k [escape_text v] m], Ok tt)) as E.
  { unfold set_raw, on_node. change 0%nat with (List.length (w_nodes empty_world) + 0)%nat.
    rewrite (world_node empty_world pr [m] 0) by (cbn; lia). rewrite world_pres, (option_name _ _ _ A).
    assert (is_valid_property_value (escape_text v) = true) as -> by (apply good_value_valid; apply C13_valid_proof).
    cbn [negb]. unfold set_raw_list_core. destruct (bytes_eqb_spec k (str "SZ")) as [E|_].
    - exfalso. apply N. left. exact E.
    - cbn [andb]. rewrite world_put by (cbn; lia). reflexivity. }
  rewrite E. destruct (IH (fun I => N (or_intror I)) c (o ++ [(k, v)]) (dset k [escape_text v] m)) as (m' & E' & R' & M').
  - pose proof (proj1 (keeps_raw (W [m]) 0 k (escape_text v) R (root_lt m []))) as K. rewrite E in K. exact K.
  - apply root_option. exact M.
  - exists m'. split; [exact E'|]. split; [exact R'|]. rewrite <- app_assoc in M'. exact M'.
Qed.

Lemma points_ok c opts m k l : root_map c opts m -> value_given opts k = None -> is_valid_property_identifier k = true ->
  k <> str "SZ" -> effective_type pr k = Ok PT_point_list -> Forall (on_board size) l ->
  exists m', set_points (W [m]) 0 k l = (W [m'], Ok tt) /\ root_map (put_if k PT_point_list (point_value l) c) opts m'.
Proof.
  intros M N V NS T OB. destruct l as [|p l]; [exists m; auto|]. cbn [set_points point_value put_if].
  destruct (set_ok empty_world size HS [m] 0 k PT_point_list (VPoints (p :: l))) as (raw & E & St); auto; [split; [discriminate|exact OB]|].
  eexists. split; [exact E|]. apply root_put; auto.
Qed.

Lemma setup_ok c opts m b wh : reachable_world (W [m]) -> root_map c opts m ->
  (forall k, In k [str "AB"; str "AW"; str "AE"] -> value_given opts k = None /\ dget k (ct_props c) = None) ->
  Forall (on_board size) b -> Forall (on_board size) wh ->
  exists m', set_setup_stones (W [m]) 0 b wh [] = (W [m'], Ok tt) /\ reachable_world (W [m']) /\
    root_map (put_if (str "AW") PT_point_list (point_value wh) (put_if (str "AB") PT_point_list (point_value b) c)) opts m'.
Proof.
  intros R M N OB OW.
  assert (exists m', set_setup_stones (W [m]) 0 b wh [] = (W [m'], Ok tt) /\
    root_map (put_if (str "AW") PT_point_list (point_value wh) (put_if (str "AB") PT_point_list (point_value b) c)) opts m') as (m' & E & M').
  { unfold set_setup_stones. change (drop_keys (W [m]) 0 [str "AB"; str "AW"; str "AE"]) with (drop_keys (W [m]) (List.length (w_nodes empty_world) + 0) [str "AB"; str "AW"; str "AE"]).
    rewrite (world_drop empty_world pr [m] 0 _ (le_n _)). cbn [nth fold_left update].
    set (m1 := ddel (str "AE") (ddel (str "AW") (ddel (str "AB") m))).
    assert (root_map c opts m1) as M1.
    { unfold m1. repeat (apply root_drop; [|apply N; simpl; tauto|apply N; simpl; tauto]). exact M. }
    destruct (points_ok c opts m1 (str "AB") b) as (m2 & E2 & M2); auto; try reflexivity; try discriminate; [apply N; simpl; tauto|].
    match goal with |- context [then_do (set_points ?a ?b ?c ?d) _] => replace (set_points a b c d) with (W [m2], Ok tt : res unit) by (symmetry; exact E2) end. cbn [then_do].
    destruct (points_ok _ opts m2 (str "AW") wh M2) as (m3 & E3 & M3); auto; try reflexivity; try discriminate; [apply N; simpl; tauto|].
    match goal with |- context [then_do (set_points ?a ?b ?c ?d) _] => replace (set_points a b c d) with (W [m3], Ok tt : res unit) by (symmetry; exact E3) end. cbn [then_do set_points]. exists m3. split; [reflexivity|exact M3]. }
  exists m'. split; [exact E|]. split; [|exact M']. pose proof (proj1 (keeps_setup (W [m]) 0 b wh [] R (root_lt m []))) as K. rewrite E in K. exact K.
Qed.

Lemma first_ok c opts m cm rest first mv txt : reachable_world (W (m :: cm :: rest)) -> root_map c opts m ->
  content_map size (the_move (first, mv, txt)) cm -> value_given opts (str "PL") = None ->
  exists m', indicate_first_player (W (m :: cm :: rest)) (new_sgf size empty_world) = (W (m' :: cm :: rest), Ok tt) /\
    reachable_world (W (m' :: cm :: rest)) /\
    root_map (put_if (str "PL") PT_colour
      (if (if dmem (str "AW") m then true else if dmem (str "AB") m && negb (dmem (str "HA") m) then true
           else if negb (dmem (str "HA") m) && colour_eqb first White then true
           else if dmem (str "HA") m && colour_eqb first Black then true else false)
       then Some (VColour first) else None) c) opts m'.
Proof.
  intros R M C N. set (ps := m :: cm :: rest) in *. unfold indicate_first_player. change (g_root (new_sgf size empty_world)) with 0%nat.
  assert (node_at (W ps) 0 = Some (node_of empty_world ps 0)) as E0 by (change 0%nat with (List.length (w_nodes empty_world) + 0)%nat at 1; apply world_node; cbn; lia).
  assert (node_at (W ps) 1 = Some (node_of empty_world ps 1)) as E1 by (change 1%nat with (List.length (w_nodes empty_world) + 1)%nat at 1; apply world_node; cbn; lia).
  rewrite E0.
  assert (t_kids (node_of empty_world ps 0) = [1%nat]) as -> by reflexivity.
  assert (get_move (W ps) 1 = Ok (Some (first, mv))) as ->.
  { eapply (shows_move (W ps) 1 (node_of empty_world ps 1) size (the_move (first, mv, txt))); [exact E1|apply world_pres| |destruct first, mv; reflexivity|destruct first; reflexivity].
    eapply node_shows_map; [exact E1|apply world_pres|]. exact C. }
  assert (forall k, has_property (W ps) 0 k = dmem k m) as HP by (intros k; unfold has_property; rewrite E0; reflexivity).
  rewrite !HP. cbv zeta.
  match goal with |- context [if ?b then set_prop _ _ _ _ else _] => destruct b eqn:EB end.
  - destruct (set_ok empty_world size HS ps 0 (str "PL") PT_colour (VColour first)) as (raw & E & St); auto; try reflexivity; try discriminate; [cbn; lia|].
    exists (dset (str "PL") raw m). split; [exact E|]. split.
    + pose proof (proj1 (keeps_set (W ps) 0 (str "PL") (VColour first) R (root_lt m _))) as K.
      change 0%nat with (List.length (w_nodes empty_world) + 0)%nat in K. rewrite E in K. exact K.
    + cbn [put_if]. apply root_put; auto.
  - exists m. split; [reflexivity|]. split; [exact R|exact M].
Qed.

End Maps.
