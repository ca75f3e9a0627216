(** Proofs about property editing and loading of SGF games (C19, C20). *)
From Verif Require Import Base Bytes PyStr Dict SgfGrammarModel SgfGrammarSpec SgfGrammarProofs SgfTextProofs
  SgfErrorProofs SgfTreeConvModel SgfTreeConvProofs CommonModel SgfPropsModel SgfPropsSpec SgfPropsProofs
  SgfValueSpec SgfValueProofs SgfTreeModel SgfTreeSpec SgfTreeProofs SgfTreeOpsProofs.

(** ** Whatever the presenter serialises is a legal property value *)

Lemma go_letter_good i c : go_letter i = Ok c -> good_value [c].
Proof.
  unfold go_letter. destruct (nth_error go_letters (Z.to_nat i)) as [c'|] eqn:E; [|discriminate].
  intros X. injection X as <-. apply nth_error_In in E. apply good_value_valid.
  assert (forallb (fun c => is_valid_property_value [c]) go_letters = true) as F by (vm_compute; reflexivity).
  rewrite forallb_forall in F. auto.
Qed.

Lemma serialise_go_point_good m size s : serialise_go_point m size = Ok s -> good_value s.
Proof.
  unfold serialise_go_point. destruct (negb _); [discriminate|]. destruct m as [[r c]|].
  - destruct (negb _); [discriminate|].
    destruct (go_letter c) as [a|] eqn:E1; [|discriminate].
    destruct (go_letter (size - r - 1)) as [b|] eqn:E2; [|discriminate].
    cbn [bind]. intros E. injection E as <-. apply (good_value_app [a] [b]); eapply go_letter_good; eauto.
  - intros E. injection E as <-. destruct (size <=? 19); apply good_value_valid; reflexivity.
Qed.

Lemma serialise_text_good s x r : serialise_text s x = Ok r -> good_value r.
Proof.
  unfold serialise_text. destruct (match c_encoding x with UTF_8 => _ | _ => _ end) as [u|]; [|discriminate].
  cbn [bind]. intros E. injection E as <-. apply C13_valid_proof.
Qed.

Lemma serialise_real_good m k : good_value (serialise_real m k).
Proof.
  destruct k as [|k]; cbn [serialise_real]; [apply str_int_no_colon|].
  destruct (_ <? _); [apply good_value_valid; reflexivity|].
  set (P := 10 ^ Z.of_nat (S k)) in *. assert (0 < P) as PP by (apply Z.pow_pos_nonneg; lia).
  pose proof (Z.mod_pos_bound (Z.abs m) P PP) as MB.
  destruct (zfill_exact (S k) (Z.abs m mod P) MB ltac:(lia)) as (_ & D2 & _).
  apply good_value_app; [destruct (m <? 0); apply good_value_valid; reflexivity|].
  apply good_value_app; [apply str_int_no_colon|].
  apply good_value_app; [apply good_value_valid; reflexivity|apply digits_good; auto].
Qed.

Lemma mapm_good {A} (f : A -> res bytes) l r :
  (forall a s, f a = Ok s -> good_value s) -> mapm f l = Ok r -> Forall good_value r.
Proof.
  intros H. revert r. induction l as [|a l IH]; cbn [mapm]; intros r E; [injection E as <-; constructor|].
  destruct (f a) as [b|] eqn:Ea; [|discriminate]. cbn [bind] in E.
  destruct (mapm f l) as [r'|] eqn:Er; [|discriminate]. cbn [bind] in E. injection E as <-. constructor; eauto.
Qed.

Lemma sort_bytes_Forall (P : bytes -> Prop) l : Forall P l -> Forall P (sort_bytes l).
Proof.
  assert (forall a l, P a -> Forall P l -> Forall P (insert_bytes a l)) as I.
  { intros a. induction l0 as [|b l0 IH]; simpl; intros Pa F; [auto|].
    inversion F; subst. destruct (bytes_ltb b a); auto. }
  unfold sort_bytes. induction 1; simpl; auto.
Qed.

Lemma colon_good a b : good_value a -> good_value b -> good_value (a ++ [char_colon] ++ b).
Proof. intros A B. apply good_value_app; auto. apply good_value_app; auto. apply good_value_valid. reflexivity. Qed.

Lemma serialise_as_type_good t v x raw : serialise_as_type t v x = Ok raw ->
  raw <> [] /\ Forall good_value raw.
Proof.
  unfold serialise_as_type. destruct (uses_list t) eqn:U.
  - destruct (serialise_list t v x) as [l|] eqn:E; [|discriminate]. cbn [bind].
    assert (Forall good_value l) as G.
    { destruct t; try discriminate; destruct v; try discriminate; cbn [serialise_list] in E.
      - unfold serialise_point_list in E. destruct (mapm _ _) as [r|] eqn:M; [|discriminate].
        cbn [bind] in E. injection E as <-. apply sort_bytes_Forall. eapply mapm_good; [|exact M].
        intros a s. apply serialise_go_point_good.
      - unfold serialise_point_list in E. destruct (mapm _ _) as [r|] eqn:M; [|discriminate].
        cbn [bind] in E. injection E as <-. apply sort_bytes_Forall. eapply mapm_good; [|exact M].
        intros a s. apply serialise_go_point_good.
      - eapply mapm_good; [|exact E]. intros a s Ea. unfold serialise_arrow in Ea.
        destruct (serialise_point (fst a) x) as [u|] eqn:E1; [|discriminate].
        destruct (serialise_point (snd a) x) as [u2|] eqn:E2; [|discriminate].
        cbn [bind] in Ea. injection Ea as <-. apply colon_good; eapply serialise_go_point_good; eauto.
      - eapply mapm_good; [|exact E]. intros a s Ea. unfold serialise_label in Ea.
        destruct (serialise_point (fst a) x) as [u|] eqn:E1; [|discriminate].
        destruct (serialise_simpletext (snd a) x) as [u2|] eqn:E2; [|discriminate].
        cbn [bind] in Ea. injection Ea as <-.
        apply colon_good; [eapply serialise_go_point_good; eauto|eapply serialise_text_good; eauto]. }
    destruct l as [|s l].
    + destruct (allows_empty_list t); [|discriminate]. intros X. injection X as <-.
      split; [discriminate|]. repeat constructor.
    + intros X. injection X as <-. split; [discriminate|auto].
  - destruct (serialise_single t v x) as [s|] eqn:E; [|discriminate]. cbn [bind].
    intros X. injection X as <-. split; [discriminate|]. constructor; [|constructor].
    destruct t; try discriminate; cbn [serialise_single] in E;
      try (injection E as <-; constructor);
      destruct v; try discriminate;
      try (injection E as <-);
      try (eapply serialise_go_point_good; eauto; fail);
      try (eapply serialise_text_good; eauto; fail);
      try apply serialise_real_good;
      try (apply str_int_no_colon).
    + unfold serialise_double. destruct (_ =? 2); apply good_value_valid; reflexivity.
    + destruct c; apply good_value_valid; reflexivity.
    + unfold serialise_AP in E. cbn [fst snd] in E.
      destruct (serialise_simpletext a x) as [u|] eqn:E1; [|discriminate].
      destruct (serialise_simpletext b x) as [u2|] eqn:E2; [|discriminate].
      cbn [bind] in E. injection E as <-.
      assert (good_value u2) as G2 by (eapply serialise_text_good; eauto).
      unfold serialise_simpletext, serialise_text in E1.
      destruct (match c_encoding x with UTF_8 => _ | _ => _ end) as [u0|]; [|discriminate].
      cbn [bind] in E1. injection E1 as <-.
      destruct (C14_proof u0 u2) as (first & _ & _ & _ & G). auto.
    + constructor.
    + cbn [serialise_FG] in E. destruct (serialise_simpletext name x) as [u|] eqn:E1; [|discriminate].
      cbn [bind] in E. injection E as <-. apply colon_good; [apply str_int_no_colon|eapply serialise_text_good; eauto].
Qed.

Lemma serialise_good p k v raw : serialise p k v = Ok raw -> raw <> [] /\ Forall good_value raw.
Proof.
  unfold serialise. destruct (effective_type p k); [|discriminate]. cbn [bind]. apply serialise_as_type_good.
Qed.

(** ** Editing one property map *)

Lemma update_same {A} n (x : A) l : nth_error l n = Some x -> update n x l = l.
Proof.
  revert n. induction l as [|y l IH]; intros [|n]; simpl; intros E; try discriminate; auto.
  - congruence.
  - rewrite IH; auto.
Qed.

Lemma update_update {A} n (x y : A) l : update n y (update n x l) = update n y l.
Proof. revert n. induction l as [|z l IH]; intros [|n]; simpl; auto. rewrite IH. reflexivity. Qed.

Lemma put_props_same w n x : node_at w n = Some x -> put_props w n x (t_props x) = w.
Proof.
  intros E. unfold put_props, set_node, with_props. destruct x as [o p k m]. simpl.
  rewrite update_same by exact E. destruct w. reflexivity.
Qed.

Lemma put_props_at w n x m k : node_at w n = Some x ->
  node_at (put_props w n x m) k = if Nat.eqb n k then Some (with_props m x) else node_at w k.
Proof.
  intros E. unfold put_props. rewrite node_at_set. destruct (Nat.eqb_spec n k) as [<-|N]; auto.
  apply node_at_lt in E. apply Nat.ltb_lt in E. rewrite E. reflexivity.
Qed.

(** What may happen to the SZ property when the size is [size]. *)
Definition sz_kept (size : Z) (m m' : pmap) : Prop :=
  dget (str "SZ") m' = dget (str "SZ") m \/
  dget (str "SZ") m' = Some [str_int size] \/
  (dget (str "SZ") m' = None /\ size = 19).

(** [w'] is [w] with the property map of [n] changed in an allowed way. *)
Definition edited (w : world) (n : nat) (w' : world) : Prop :=
  exists x pr m, node_at w n = Some x /\ pres_of w x = Some pr /\ w' = put_props w n x m /\
    (parsed_node (t_props x) -> parsed_node m) /\ sz_kept (c_size (pr_context pr)) (t_props x) m.

Lemma edited_refl w n x pr : node_at w n = Some x -> pres_of w x = Some pr -> edited w n w.
Proof.
  intros E P. exists x, pr, (t_props x). rewrite put_props_same by auto.
  split; auto. split; auto. split; auto. split; auto. left. auto.
Qed.

Lemma edited_trans w n w' w'' : edited w n w' -> edited w' n w'' -> edited w n w''.
Proof.
  intros (x & pr & m & E & P & -> & G & S) (x' & pr' & m' & E' & P' & -> & G' & S').
  rewrite (put_props_at _ _ _ _ _ E), Nat.eqb_refl in E'. injection E' as <-.
  assert (pr' = pr) as -> by (change (pres_of w x = Some pr') in P'; congruence).
  exists x, pr, m'. split; auto. split; auto. split; [|split].
  - unfold put_props, set_node. simpl. rewrite update_update. reflexivity.
  - intros H. simpl in G'. apply G'. apply G. auto.
  - unfold sz_kept in *. cbn [with_props t_props] in S'. destruct S' as [S'|[S'|S']]; [|auto|auto]. rewrite S'. auto.
Qed.

Lemma edited_links w n w' : edited w n w' -> same_links w w'.
Proof. intros (x & pr & m & E & P & -> & _). apply put_props_links. auto. Qed.

Lemma good_ident_parsed k : good_ident k -> parsed_ident k.
Proof. intros (_ & L & F). split; auto. Qed.

Lemma parsed_dset k vs m : good_ident k -> vs <> [] -> Forall good_value vs -> parsed_node m -> parsed_node (dset k vs m).
Proof.
  intros I N G [ND F]. split; [apply dset_NoDup; auto|]. clear ND. induction F as [|[k' v'] m [H1 H2] F IH]; simpl.
  - constructor; [|constructor]. split; [apply good_ident_parsed|]; auto.
  - destruct (bytes_eqb k k'); constructor; auto.
Qed.

Lemma ddel_In {A} k (d : dict A) kv : In kv (ddel k d) -> In kv d.
Proof.
  induction d as [|[k' v'] d IH]; simpl; auto. destruct (bytes_eqb k k'); simpl; intuition.
Qed.

Lemma ddel_NoDup {A} k (d : dict A) : NoDup (map fst d) -> NoDup (map fst (ddel k d)).
Proof.
  induction d as [|[k' v'] d IH]; simpl; intros ND; auto. inversion ND as [|? ? N1 N2]; subst.
  destruct (bytes_eqb k k'); simpl; auto. constructor; auto. intros H. apply N1.
  apply in_map_iff in H. destruct H as (kv & E & H). apply in_map_iff. exists kv. split; auto.
  eapply ddel_In; eauto.
Qed.

Lemma parsed_ddel k m : parsed_node m -> parsed_node (ddel k m).
Proof.
  intros [ND F]. split; [apply ddel_NoDup; auto|]. rewrite Forall_forall in *. intros kv H.
  apply F. eapply ddel_In; eauto.
Qed.

(** The outcome of an operation that only edits the node [n]. *)
Definition edits (w : world) (n : nat) (o : outcome) : Prop := edited w n (fst o).

Lemma on_node_edits w n f :
  (n < List.length (w_nodes w))%nat -> wf w ->
  (forall x pr, node_at w n = Some x -> pres_of w x = Some pr -> edits w n (f x pr)) ->
  edits w n (on_node w n f).
Proof.
  intros L W H. destruct (node_at_some _ _ L) as (x & E). destruct (wf_owner _ W _ _ E) as (g & G).
  assert (pres_of w x = Some (g_pres g)) as P by (unfold pres_of; rewrite G; reflexivity).
  unfold on_node. rewrite E, P. auto.
Qed.

Lemma core_edits w n x pr k vs : node_at w n = Some x -> pres_of w x = Some pr ->
  good_ident k -> vs <> [] -> Forall good_value vs ->
  edits w n (set_raw_list_core w n x pr k vs).
Proof.
  intros E P I N G. unfold set_raw_list_core, edits.
  destruct (bytes_eqb_spec k (str "SZ")) as [->|Nk]; cbn [andb].
  - match goal with |- context [negb ?b] => destruct b eqn:B end; cbn [negb fst raise done].
    + exists x, pr, (dset (str "SZ") vs (t_props x)). split; auto. split; auto. split; auto. split.
      * apply parsed_dset; auto.
      * right. left. rewrite dget_dset_same. destruct vs as [|v [|v2 r]]; try discriminate.
        destruct (bytes_eqb_spec v (str_int (c_size (pr_context pr)))) as [->|]; [reflexivity|discriminate].
    + eapply edited_refl; eauto.
  - cbn [fst done]. exists x, pr, (dset k vs (t_props x)). split; auto. split; auto. split; auto. split.
    + apply parsed_dset; auto.
    + left. apply dget_dset_other. auto.
Qed.

Lemma raise_edits w n x pr e : node_at w n = Some x -> pres_of w x = Some pr -> edits w n (raise w e).
Proof. intros E P. unfold edits. simpl. eapply edited_refl; eauto. Qed.

Lemma forallb_good vs : forallb is_valid_property_value vs = true <-> Forall good_value vs.
Proof.
  rewrite forallb_forall, Forall_forall. split; intros H v Hv; specialize (H v Hv); apply good_value_valid; auto.
Qed.

Lemma set_raw_list_edits w n k vs : (n < List.length (w_nodes w))%nat -> wf w -> edits w n (set_raw_list w n k vs).
Proof.
  intros L W. apply on_node_edits; auto. intros x pr E P.
  destruct (is_valid_property_identifier k) eqn:I; cbn [negb]; [|eapply raise_edits; eauto].
  destruct vs as [|v vs]; [eapply raise_edits; eauto|].
  destruct (forallb is_valid_property_value (v :: vs)) eqn:F; [|eapply raise_edits; eauto].
  apply core_edits; auto; [apply good_ident_valid; auto|discriminate|apply forallb_good; auto].
Qed.

Lemma set_raw_edits w n k v : (n < List.length (w_nodes w))%nat -> wf w -> edits w n (set_raw w n k v).
Proof.
  intros L W. apply on_node_edits; auto. intros x pr E P.
  destruct (is_valid_property_identifier k) eqn:I; cbn [negb]; [|eapply raise_edits; eauto].
  destruct (is_valid_property_value v) eqn:F; cbn [negb]; [|eapply raise_edits; eauto].
  apply core_edits; auto; [apply good_ident_valid; auto|discriminate|constructor; auto; apply good_value_valid; auto].
Qed.

Lemma set_prop_edits w n k v : (n < List.length (w_nodes w))%nat -> wf w -> edits w n (set_prop w n k v).
Proof.
  intros L W. apply on_node_edits; auto. intros x pr E P.
  destruct (is_valid_property_identifier k) eqn:I; cbn [negb]; [|eapply raise_edits; eauto].
  destruct (serialise pr k v) as [vs|] eqn:F; [|eapply raise_edits; eauto].
  destruct (serialise_good _ _ _ _ F). apply core_edits; auto. apply good_ident_valid; auto.
Qed.

Lemma unset_edits w n k : (n < List.length (w_nodes w))%nat -> wf w -> edits w n (unset w n k).
Proof.
  intros L W. apply on_node_edits; auto. intros x pr E P.
  destruct (bytes_eqb_spec k (str "SZ")) as [->|Nk]; cbn [andb].
  - destruct (Z.eqb_spec (c_size (pr_context pr)) 19) as [S|S]; cbn [negb]; [|eapply raise_edits; eauto].
    destruct (dmem (str "SZ") (t_props x)); [|eapply raise_edits; eauto].
    unfold edits, done. cbn [fst]. eexists x, pr, _. split; auto. split; auto. split; [reflexivity|]. split.
    + apply parsed_ddel.
    + right. right. split; auto. rewrite dget_ddel, bytes_eqb_refl. reflexivity.
  - destruct (dmem k (t_props x)); [|eapply raise_edits; eauto].
    unfold edits, done. cbn [fst]. eexists x, pr, _. split; auto. split; auto. split; [reflexivity|]. split.
    + apply parsed_ddel.
    + left. rewrite dget_ddel. destruct (bytes_eqb_spec (str "SZ") k); congruence.
Qed.

Lemma drop_keys_edits w n ks : (n < List.length (w_nodes w))%nat -> wf w -> ~ In (str "SZ") ks ->
  edited w n (drop_keys w n ks).
Proof.
  intros L W NI. destruct (node_at_some _ _ L) as (x & E). destruct (wf_owner _ W _ _ E) as (g & G).
  unfold drop_keys. rewrite E. eexists x, (g_pres g), _. split; auto.
  split; [unfold pres_of; rewrite G; reflexivity|]. split; [reflexivity|].
  revert NI. generalize (t_props x) as m. induction ks as [|k ks IH]; simpl; intros m NI.
  - split; auto. left. auto.
  - destruct (IH (ddel k m)) as [A B]; [tauto|]. split.
    + intros H. apply A. apply parsed_ddel. auto.
    + unfold sz_kept in *. destruct B as [B|B]; [left|right; auto]. rewrite B, dget_ddel.
      destruct (bytes_eqb_spec (str "SZ") k); [exfalso; apply NI; auto|reflexivity].
Qed.

Lemma edited_length w n w' : edited w n w' -> List.length (w_nodes w') = List.length (w_nodes w).
Proof. intros (x & pr & m & E & P & -> & _). unfold put_props, set_node. simpl. apply update_len. Qed.

Lemma edited_wf w n w' : edited w n w' -> wf w -> wf w'.
Proof. intros E. apply same_links_wf. eapply edited_links; eauto. Qed.

Lemma set_move_edits w n c m : (n < List.length (w_nodes w))%nat -> wf w -> edits w n (set_move w n c m).
Proof.
  intros L W. assert (edited w n (drop_keys w n [str "B"; str "W"])) as D.
  { apply drop_keys_edits; auto. simpl. intuition discriminate. }
  eapply edited_trans; [exact D|]. apply set_prop_edits.
  - rewrite (edited_length _ _ _ D). auto.
  - eapply edited_wf; eauto.
Qed.

Lemma then_edits w n o f : edits w n o ->
  (forall w', edited w n w' -> edits w' n (f w')) -> edits w n (then_do o f).
Proof.
  intros E H. destruct o as [w' [[]|e]]; unfold edits in *; simpl in *; auto.
  eapply edited_trans; [exact E|]. apply H. auto.
Qed.

Lemma set_points_edits w n k l : (n < List.length (w_nodes w))%nat -> wf w -> edits w n (set_points w n k l).
Proof.
  intros L W. unfold set_points. destruct l as [|p l]; [|apply set_prop_edits; auto].
  destruct (node_at_some _ _ L) as (x & E). destruct (wf_owner _ W _ _ E) as (g & G).
  unfold edits. simpl. eapply edited_refl; [exact E|]. unfold pres_of. rewrite G. reflexivity.
Qed.

Lemma set_setup_edits w n b wh e : (n < List.length (w_nodes w))%nat -> wf w -> edits w n (set_setup_stones w n b wh e).
Proof.
  intros L W. assert (edited w n (drop_keys w n [str "AB"; str "AW"; str "AE"])) as D.
  { apply drop_keys_edits; auto. simpl. intuition discriminate. }
  unfold edits. eapply edited_trans; [exact D|].
  assert (forall w', edited (drop_keys w n [str "AB"; str "AW"; str "AE"]) n w' ->
            (n < List.length (w_nodes w'))%nat /\ wf w') as K.
  { intros w' E. split.
    - rewrite (edited_length _ _ _ E), (edited_length _ _ _ D). auto.
    - eapply edited_wf; [exact E|]. eapply edited_wf; eauto. }
  apply then_edits.
  - apply set_points_edits; [rewrite (edited_length _ _ _ D); auto|eapply edited_wf; eauto].
  - intros w1 E1. destruct (K w1 E1). apply then_edits; [apply set_points_edits; auto|].
    intros w2 E2. destruct (K w2 (edited_trans _ _ _ _ E1 E2)). apply set_points_edits; auto.
Qed.

Lemma add_comment_edits w n t : (n < List.length (w_nodes w))%nat -> wf w -> edits w n (add_comment_text w n t).
Proof.
  intros L W. unfold add_comment_text.
  destruct (node_at_some _ _ L) as (x & E). destruct (wf_owner _ W _ _ E) as (g & G).
  assert (pres_of w x = Some (g_pres g)) as P by (unfold pres_of; rewrite G; reflexivity).
  destruct (has_property w n (str "C")); [|apply set_prop_edits; auto].
  destruct (get_prop w n (str "C")) as [[]|]; try (eapply raise_edits; eauto; fail). apply set_prop_edits; auto.
Qed.
