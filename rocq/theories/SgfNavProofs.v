(** Navigation (C19), property maps (C20) and whole-game round trips (C47). *)
From Verif Require Import Base Bytes PyStr Dict SgfGrammarModel SgfGrammarSpec SgfGrammarProofs SgfTextProofs
  SgfErrorProofs SgfTreeConvModel SgfTreeConvProofs CommonModel SgfPropsModel SgfPropsSpec SgfPropsProofs
  SgfValueSpec SgfValueProofs SgfTreeModel SgfTreeSpec SgfTreeProofs SgfTreeOpsProofs
  SgfNodeProofs SgfGameProofs SgfTreeMainProofs.

(** ** Navigation *)

Lemma labels_length w n t : wf w -> tree_of w n t -> (List.length (labels t) <= List.length (w_nodes w))%nat.
Proof.
  intros W T. pose proof (labels_nodup _ _ _ W T) as ND.
  rewrite <- (seq_length (List.length (w_nodes w)) 0). apply NoDup_incl_length; auto.
  intros m H. apply in_seq. destruct (tree_valid _ _ _ T m H) as (x & E). apply node_at_lt in E. lia.
Qed.

Lemma leftmost_length t : (List.length (leftmost t) <= List.length (labels t))%nat.
Proof.
  induction t as [n ks IH] using rose_ind2. simpl. destruct ks as [|k ks]; simpl; [lia|].
  inversion IH; subst. rewrite app_length. lia.
Qed.

Lemma main_line_ok w n t : tree_of w n t -> forall fuel, (List.length (leftmost t) <= S fuel)%nat ->
  main_line fuel w n = Ok (leftmost t).
Proof.
  intros T. pattern n, t. revert n t T. apply tree_of_ind2. intros n x ts E F IH fuel L.
  destruct fuel as [|fuel]; cbn [main_line]; rewrite E; destruct IH as [|c t l l' H _]; try reflexivity.
  - exfalso. simpl in L. destruct t as [m k]. simpl in L. lia.
  - rewrite H; [reflexivity|]. simpl in L. lia.
Qed.

Lemma C19_main_line_proof w i g : reachable_world w -> game_at w i = Some g ->
  exists t, tree_of w (g_root g) t /\ main_line (List.length (w_nodes w)) w (g_root g) = Ok (leftmost t).
Proof.
  intros R G. pose proof (inv_wf _ (reachable_inv _ R)) as W. destruct (inv_tree _ _ _ W G) as (t & T & _).
  exists t. split; auto. apply main_line_ok; auto.
  pose proof (labels_length _ _ _ W T). pose proof (leftmost_length t). lia.
Qed.

Lemma ancestors_ok w n l : up w n l -> forall fuel, (List.length l <= S fuel)%nat ->
  ancestors fuel w n = Ok (tl l).
Proof.
  intros U. induction U as [n x E P|n x p l E P U IH]; intros fuel L.
  - destruct fuel; cbn [ancestors]; rewrite E, P; reflexivity.
  - destruct (up_head _ _ _ U) as (l' & El). destruct fuel as [|fuel]; [subst l; simpl in L; lia|].
    cbn [ancestors]. rewrite E, P. rewrite IH by (simpl in L; lia). subst l. reflexivity.
Qed.

Lemma find_ok w n l k : up w n l -> forall fuel, (List.length l <= S fuel)%nat ->
  SgfTreeModel.find fuel w n k = Ok (List.find (fun m => has_property w m k) l).
Proof.
  intros U. induction U as [n x E P|n x p l E P U IH]; intros fuel L.
  - destruct fuel; cbn [SgfTreeModel.find List.find]; unfold has_property; rewrite E, P;
      destruct (dmem k (t_props x)); reflexivity.
  - destruct (up_head _ _ _ U) as (l' & El). destruct fuel as [|fuel]; [subst l; simpl in L; lia|].
    cbn [SgfTreeModel.find List.find]. unfold has_property at 1. rewrite E, P.
    destruct (dmem k (t_props x)); [reflexivity|]. apply IH. simpl in L. lia.
Qed.

Lemma path_up w r t : wf w -> tree_of w r t -> parent_is w r None -> forall n l, In n (labels t) ->
  up w n l -> path_to n t (rev (tl l)).
Proof.
  intros W T PR n l H U.
  (* a path down to the parent extends to the child *)
  assert (forall r t, tree_of w r t -> forall p q, path_to p t q -> forall m, lists w p m -> path_to m t (q ++ [p])) as EXT.
  { intros r0 t0 T0 p q Pq. revert r0 T0. induction Pq as [ts|m ts t1 l1 Ht Pq IH]; intros r0 T0 c (lc & (y & Ey & <-) & Hc).
    - inversion T0 as [? x ? E F]; subst. assert (x = y) by congruence. subst y.
      destruct (tree_exists_member w p x E c ts Hc F) as (tc & Htc & Tc). simpl. apply path_down with (t := tc); auto.
      pose proof (tree_of_label _ _ _ Tc). destruct tc; simpl in *. subst. constructor.
    - inversion T0 as [? x ? E F]; subst. simpl. eapply path_down; eauto.
      assert (exists k, tree_of w k t1) as (k & Tk).
      { clear -F Ht. induction F; [destruct Ht|]. destruct Ht as [<-|Ht]; eauto. }
      eapply IH; eauto. exists (t_kids y). split; [exists y; auto|auto]. }
  revert H. induction U as [n x E P|n x p l E P U IH]; intros H.
  - simpl. destruct (Nat.eq_dec n r) as [->|N].
    + pose proof (tree_of_label _ _ _ T). destruct t; simpl in *. subst. constructor.
    + destruct (tree_parent _ _ _ W T n H N) as (p & (y & Ey & Py) & _). congruence.
  - destruct (Nat.eq_dec n r) as [->|N].
    + destruct PR as (y & Ey & Py). congruence.
    + destruct (tree_parent _ _ _ W T n H N) as (p' & (y & Ey & Py) & Hp & Li).
      assert (p' = p) by congruence. subst p'. cbn [tl].
      destruct (up_head _ _ _ U) as (l' & ->). cbn [rev]. cbn [tl] in IH. eapply EXT; eauto.
Qed.

Lemma C19_sequence_above_proof w i g t n : reachable_world w -> game_at w i = Some g ->
  tree_of w (g_root g) t -> In n (labels t) ->
  exists l, get_sequence_above w n = Ok l /\ path_to n t l /\
    forall k, SgfTreeModel.find (List.length (w_nodes w)) w n k =
      Ok (List.find (fun m => has_property w m k) (rev (l ++ [n]))).
Proof.
  intros R G T H. pose proof (inv_wf _ (reachable_inv _ R)) as W.
  destruct (tree_valid _ _ _ T n H) as (x & E). destruct (wf_up _ W _ _ E) as (l & U).
  pose proof (up_length _ _ _ U) as L. destruct (wf_game _ W _ _ G) as (y & Ey & Py & _).
  exists (rev (tl l)). split; [|split].
  - unfold get_sequence_above. rewrite (ancestors_ok w n l U) by lia. reflexivity.
  - eapply path_up; eauto. exists y. auto.
  - intros k. rewrite (find_ok w n l k U) by lia. rewrite rev_app_distr, rev_involutive.
    destruct (up_head _ _ _ U) as (l' & ->). reflexivity.
Qed.

(** ** Property maps (C20) *)

Lemma put_props_changes w n x m' ks : node_at w n = Some x ->
  (forall k, ~ In k ks -> dget k m' = dget k (t_props x)) -> only_changes w n ks (put_props w n x m').
Proof.
  intros E H. pose proof (put_props_links w n x m' E) as SL. pose proof (same_links_sym _ _ SL) as SL'.
  split; [|split; [|split; [|split]]].
  - intros m k D. unfold get_raw_list. rewrite (put_props_at _ _ _ _ _ E).
    destruct (Nat.eqb_spec n m) as [<-|N]; [|reflexivity]. rewrite E. simpl. rewrite H; auto.
    destruct D; [congruence|auto].
  - intros m t. split; apply same_links_tree; auto.
  - intros m p. split; intros (y & Ey & Py).
    + destruct (same_links_node _ _ _ _ SL Ey) as (z & Ez & _ & Pz & _). exists z. split; congruence.
    + destruct (same_links_node _ _ _ _ SL' Ey) as (z & Ez & _ & Pz & _). exists z. split; congruence.
  - intros m p. split; intros (y & Ey & Py).
    + destruct (same_links_node _ _ _ _ SL Ey) as (z & Ez & Oz & _). exists z. split; congruence.
    + destruct (same_links_node _ _ _ _ SL' Ey) as (z & Ez & Oz & _). exists z. split; congruence.
  - reflexivity.
Qed.

Lemma node_pres w n : wf w -> (n < List.length (w_nodes w))%nat ->
  exists x pr, node_at w n = Some x /\ pres_of w x = Some pr /\ c_size (pr_context pr) = size_of w n.
Proof.
  intros W L. destruct (node_at_some _ _ L) as (x & E). destruct (wf_owner _ W _ _ E) as (g & G).
  exists x, (g_pres g). assert (pres_of w x = Some (g_pres g)) as P by (unfold pres_of; rewrite G; reflexivity).
  split; auto. split; auto. unfold size_of. rewrite E, P. reflexivity.
Qed.

Lemma core_ok w n x pr k vs : node_at w n = Some x -> pres_of w x = Some pr ->
  (k = str "SZ" -> vs = [str_int (c_size (pr_context pr))]) ->
  exists w', set_raw_list_core w n x pr k vs = (w', Ok tt) /\
    get_raw_list w' n k = Ok vs /\ only_changes w n [k] w'.
Proof.
  intros E P H. unfold set_raw_list_core.
  assert (bytes_eqb k (str "SZ") && negb match vs with [v] => bytes_eqb v (str_int (c_size (pr_context pr))) | _ => false end = false) as ->.
  { destruct (bytes_eqb_spec k (str "SZ")) as [->|N]; auto. rewrite H by auto. rewrite bytes_eqb_refl. reflexivity. }
  eexists. split; [reflexivity|]. split.
  - unfold get_raw_list. rewrite (put_props_at _ _ _ _ _ E), Nat.eqb_refl. cbn [with_props t_props].
    rewrite dget_dset_same. reflexivity.
  - apply put_props_changes; auto. intros k' N. apply dget_dset_other. intros ->. apply N. left. auto.
Qed.

Lemma core_err w n x pr k vs : ~ (k = str "SZ" -> vs = [str_int (c_size (pr_context pr))]) ->
  set_raw_list_core w n x pr k vs = (w, Err ValueError).
Proof.
  intros H. unfold set_raw_list_core. destruct (bytes_eqb_spec k (str "SZ")) as [->|N]; [|exfalso; apply H; congruence].
  match goal with |- context [negb ?b] => destruct b eqn:B end; [|reflexivity]. exfalso. apply H. intros _.
  destruct vs as [|v [|v2 r]]; try discriminate.
  destruct (bytes_eqb_spec v (str_int (c_size (pr_context pr)))) as [->|]; [reflexivity|discriminate].
Qed.

Lemma eq_dec_list_bytes (a b : list bytes) : {a = b} + {a <> b}.
Proof. repeat decide equality. Qed.

Lemma C20_set_raw_list_proof w n k vs : reachable_world w -> (n < List.length (w_nodes w))%nat ->
  let ok := good_ident k /\ vs <> [] /\ Forall good_value vs /\
            (k = str "SZ" -> vs = [str_int (size_of w n)]) in
  (ok -> exists w', set_raw_list w n k vs = (w', Ok tt) /\ get_raw_list w' n k = Ok vs /\
           only_changes w n [k] w') /\
  (~ ok -> set_raw_list w n k vs = (w, Err ValueError)).
Proof.
  intros R L ok. pose proof (inv_wf _ (reachable_inv _ R)) as W.
  destruct (node_pres w n W L) as (x & pr & E & P & S).
  unfold set_raw_list, on_node. rewrite E, P. split.
  - intros (I & N & G & Z). apply good_ident_valid in I. rewrite I. cbn [negb].
    destruct vs as [|v vs]; [congruence|]. apply forallb_good in G. rewrite G.
    apply core_ok; auto. rewrite S. auto.
  - intros NO. destruct (is_valid_property_identifier k) eqn:I; cbn [negb]; [|reflexivity].
    destruct vs as [|v vs]; [reflexivity|]. destruct (forallb is_valid_property_value (v :: vs)) eqn:G; [|reflexivity].
    apply core_err. rewrite S. intros H. apply NO. split; [apply good_ident_valid; auto|].
    split; [discriminate|]. split; [apply forallb_good; auto|auto].
Qed.

Lemma C20_set_raw_proof w n k v : reachable_world w -> (n < List.length (w_nodes w))%nat ->
  set_raw w n k v = set_raw_list w n k [v].
Proof.
  intros R L. pose proof (inv_wf _ (reachable_inv _ R)) as W.
  destruct (node_pres w n W L) as (x & pr & E & P & S).
  unfold set_raw, set_raw_list, on_node. rewrite E, P.
  destruct (negb _); [reflexivity|]. cbn [forallb]. rewrite andb_true_r.
  destruct (is_valid_property_value v); reflexivity.
Qed.

Lemma only_changes_pres w n ks w' x pr : only_changes w n ks w' -> node_at w n = Some x -> pres_of w x = Some pr ->
  exists x', node_at w' n = Some x' /\ pres_of w' x' = Some pr.
Proof.
  intros (_ & _ & _ & O & G) E P. destruct (proj1 (O n (t_owner x))) as (x' & E' & O'); [exists x; auto|].
  exists x'. split; auto. unfold pres_of, game_at in *. rewrite O', G. auto.
Qed.

Lemma set_prop_ok w n k v t c : inv w ->
  good_ident k -> k <> str "SZ" -> type_of w n k t -> context_of w n c -> c_size c <= 25 -> value_ok c t v ->
  exists w' v', set_prop w n k v = (w', Ok tt) /\ only_changes w n [k] w' /\
    get_prop w' n k = Ok v' /\ reads_back t v v'.
Proof.
  intros IV I NS (x & pr & E & P & T) (x0 & pr0 & E0 & P0 & C) Sz V.
  rewrite E in E0. injection E0 as <-. rewrite P in P0. injection P0 as <-.
  pose proof (inv_wf _ IV) as W.
  destruct (wf_owner _ W _ _ E) as (g & G). destruct (inv_size _ IV _ _ G) as [B _].
  assert (1 <= c_size c <= 25) as B2.
  { unfold pres_of in P. rewrite G in P. simpl in P. injection P as <-. unfold g_size in B. rewrite C in B. lia. }
  destruct (C18_proof c t v B2 V) as (raw & SE & N & GV & v' & IE & RB).
  unfold set_prop, on_node. rewrite E, P. apply good_ident_valid in I. rewrite I. cbn [negb].
  unfold serialise. rewrite T. cbn [bind]. rewrite C, SE.
  destruct (core_ok w n x pr k raw E P ltac:(congruence)) as (w' & -> & GR & OC).
  exists w', v'. split; auto. split; auto. split; [|auto].
  unfold get_prop. rewrite GR. cbn [bind].
  destruct (only_changes_pres _ _ _ _ _ _ OC E P) as (x' & E' & P'). rewrite E', P'.
  unfold interpret. rewrite T. cbn [bind]. rewrite C. auto.
Qed.

Lemma C20_set_proof w n k v t c : reachable_world w -> (n < List.length (w_nodes w))%nat ->
  good_ident k -> k <> str "SZ" -> type_of w n k t -> context_of w n c -> c_size c <= 25 -> value_ok c t v ->
  exists w' v', set_prop w n k v = (w', Ok tt) /\ only_changes w n [k] w' /\
    get_prop w' n k = Ok v' /\ reads_back t v v'.
Proof. intros R L. apply set_prop_ok, reachable_inv; auto. Qed.

Lemma C20_set_fails_proof w n k v e w' : reachable_world w -> (n < List.length (w_nodes w))%nat ->
  set_prop w n k v = (w', Err e) -> w' = w.
Proof.
  intros R L. pose proof (inv_wf _ (reachable_inv _ R)) as W.
  destruct (node_pres w n W L) as (x & pr & E & P & S).
  unfold set_prop, on_node. rewrite E, P. destruct (negb _); [intros H; injection H; auto|].
  destruct (serialise pr k v); [|intros H; injection H; auto].
  unfold set_raw_list_core. destruct (_ && _); [intros H; injection H; auto|discriminate].
Qed.

Lemma C20_unset_proof w n k : reachable_world w -> (n < List.length (w_nodes w))%nat ->
  (k = str "SZ" /\ size_of w n <> 19 -> unset w n k = (w, Err ValueError)) /\
  (~ (k = str "SZ" /\ size_of w n <> 19) ->
     if has_property w n k then
       exists w', unset w n k = (w', Ok tt) /\ get_raw_list w' n k = Err KeyError /\ only_changes w n [k] w'
     else unset w n k = (w, Err KeyError)).
Proof.
  intros R L. pose proof (inv_wf _ (reachable_inv _ R)) as W.
  destruct (node_pres w n W L) as (x & pr & E & P & S).
  unfold unset, on_node, has_property. rewrite E, P, S. split.
  - intros [-> N]. rewrite bytes_eqb_refl. apply Z.eqb_neq in N. rewrite N. reflexivity.
  - intros H. assert (bytes_eqb k (str "SZ") && negb (size_of w n =? 19) = false) as ->.
    { destruct (bytes_eqb_spec k (str "SZ")) as [->|]; auto. destruct (Z.eqb_spec (size_of w n) 19); auto.
      exfalso. apply H. auto. }
    destruct (dmem k (t_props x)) eqn:D; [|reflexivity].
    eexists. split; [reflexivity|]. split.
    + unfold get_raw_list. rewrite (put_props_at _ _ _ _ _ E), Nat.eqb_refl. cbn [with_props t_props].
      rewrite dget_ddel, bytes_eqb_refl. reflexivity.
    + apply put_props_changes; auto. intros k' N. rewrite dget_ddel.
      destruct (bytes_eqb_spec k' k) as [->|]; auto. exfalso. apply N. left. auto.
Qed.

(** ** The board size (C20) *)

Lemma edited_games w n w' : edited w n w' -> w_games w' = w_games w.
Proof. intros (x & pr & m & E & P & -> & _). reflexivity. Qed.

Definition sizes_kept (w w' : world) : Prop :=
  forall i g, game_at w i = Some g -> exists g', game_at w' i = Some g' /\ g_root g' = g_root g /\ g_size g' = g_size g.

Lemma sizes_kept_eq w w' : w_games w' = w_games w -> sizes_kept w w'.
Proof. intros E i g G. exists g. unfold game_at in *. rewrite E. auto. Qed.

Lemma sizes_kept_trans w w' w'' : sizes_kept w w' -> sizes_kept w' w'' -> sizes_kept w w''.
Proof.
  intros A B i g G. destruct (A _ _ G) as (g' & G' & R & S). destruct (B _ _ G') as (g'' & G'' & R' & S').
  exists g''. split; auto. split; congruence.
Qed.

Lemma alloc_sizes w size e m : sizes_kept w (alloc_game w size e m).
Proof.
  intros i g G. exists g. rewrite alloc_game_at. pose proof (game_at_lt _ _ _ G).
  destruct (Nat.eqb_spec i (List.length (w_games w))); [lia|]. auto.
Qed.

Lemma set_presenter_sizes w g f : (forall p p', f p = Ok p' -> pr_context p' = pr_context p) ->
  sizes_kept w (fst (set_presenter w g f)).
Proof.
  intros H. unfold set_presenter. destruct (game_at w g) as [x|] eqn:E; [|apply sizes_kept_eq; auto].
  destruct (f (g_pres x)) as [p|] eqn:F; [|apply sizes_kept_eq; auto]. cbn [fst done].
  intros i gi Gi. unfold game_at in *. cbn [w_games]. rewrite nth_update.
  destruct (Nat.eqb_spec g i) as [<-|N]; [|exists gi; auto].
  assert (g < List.length (w_games w))%nat as L by (apply nth_error_Some; congruence).
  apply Nat.ltb_lt in L. rewrite L. eexists. split; [reflexivity|]. rewrite E in Gi. injection Gi as <-.
  split; auto. unfold g_size. simpl. rewrite (H _ _ F). reflexivity.
Qed.

Lemma exec_sizes w o : inv w -> applicable w o -> sizes_kept w (fst (exec w o)).
Proof.
  intros I [AN AG]. pose proof (inv_wf _ I) as W.
  destruct o; cbn [exec op_nodes] in *;
    try (match type of AN with Forall _ [?n] => assert (n < List.length (w_nodes w))%nat as L by (inversion AN; auto) end);
    try (apply sizes_kept_eq; eapply edited_games;
         (apply set_raw_list_edits || apply set_raw_edits || apply set_prop_edits || apply unset_edits ||
          apply set_move_edits || apply set_setup_edits || apply add_comment_edits); auto; fail).
  - unfold new_game. destruct (negb _); [apply sizes_kept_eq; auto|].
    eapply sizes_kept_trans; [apply alloc_sizes|]. apply sizes_kept_eq.
    apply (edited_games _ (List.length (w_nodes w))).
    set (w0 := alloc_game w size e []).
    assert (forall w', edited w0 (List.length (w_nodes w)) w' -> (List.length (w_nodes w) < List.length (w_nodes w'))%nat /\ wf w') as K.
    { intros w' E. split; [rewrite (edited_length _ _ _ E); unfold w0; simpl; rewrite app_length; simpl; lia|].
      eapply edited_wf; eauto. apply alloc_wf. auto. }
    assert (edited w0 (List.length (w_nodes w)) w0) as E0.
    { eapply edited_refl; [unfold w0; rewrite alloc_at, Nat.eqb_refl; reflexivity|].
      unfold pres_of. simpl t_owner. unfold w0. rewrite alloc_game_at, Nat.eqb_refl. reflexivity. }
    destruct (K _ E0). apply then_edits; [apply set_raw_edits; auto|].
    intros w1 E1. destruct (K _ E1). apply then_edits; [apply set_raw_edits; auto|].
    intros w2 E2. pose proof (edited_trans _ _ _ _ E1 E2) as E2'. destruct (K _ E2'). apply then_edits; [apply set_raw_edits; auto|].
    intros w3 E3. destruct (K _ (edited_trans _ _ _ _ E2' E3)). apply set_raw_edits; auto.
  - unfold load_string. destruct (parse_sgf_game s) as [t|]; [|apply sizes_kept_eq; auto].
    unfold load_game. destruct (c_sequence t) as [|m sq]; [apply sizes_kept_eq; auto|].
    destruct (match dget (str "SZ") m with None => _ | Some _ => _ end) as [size|]; [|apply sizes_kept_eq; auto].
    destruct (negb _); [apply sizes_kept_eq; auto|]. destruct (ntree_of t) as [props ks].
    eapply sizes_kept_trans; [apply (alloc_sizes w size e props)|].
    assert (node_at (alloc_game w size e props) (List.length (w_nodes w)) = Some (mkT (List.length (w_games w)) None [] props)) as E0.
    { rewrite alloc_at, Nat.eqb_refl. reflexivity. }
    destruct (load_kids_all ks _ _ _ E0 (alloc_wf w size e props W)) as (W1 & X1 & _). unfold load_kids in *.
    set (w1 := fold_left (fun w' k => load_below k (List.length (w_nodes w)) w') ks (alloc_game w size e props)) in *.
    destruct X1 as (G1 & L1 & _). apply sizes_kept_eq. destruct override; [|exact G1]. rewrite <- G1.
    eapply edited_games. apply set_raw_edits; auto.
    unfold alloc_game in L1. simpl in L1. rewrite app_length in L1. simpl in L1. lia.
  - unfold new_child. destruct (node_at_some _ _ L) as (x & E). rewrite E. apply sizes_kept_eq.
    apply (new_node_games w n index [] x E).
  - destruct (attached_dec w n) as [A|A].
    + destruct (delete_ok w n W A) as (w' & -> & _ & (G & _) & _). apply sizes_kept_eq. auto.
    + rewrite (delete_err w n W L A). apply sizes_kept_eq. auto.
  - assert (n < List.length (w_nodes w))%nat as L1 by (inversion AN; auto).
    assert (np < List.length (w_nodes w))%nat as L2 by (inversion AN as [|? ? ? A2]; inversion A2; auto).
    assert (sizes_kept w w) as RF by (apply sizes_kept_eq; auto).
    destruct (attached_dec w n) as [A|A]; [|rewrite (reparent_err w n np index W L1 L2); auto].
    destruct (same_owner_dec w n np L1 L2) as [O|O]; [|rewrite (reparent_err w n np index W L1 L2); auto].
    destruct (above_dec w n np W L2) as [B|B]; [rewrite (reparent_err w n np index W L1 L2); auto|].
    destruct (reparent_ok w n np index W A O B) as (w' & -> & _ & (G & _) & _). apply sizes_kept_eq. auto.
  - apply set_presenter_sizes. intros p p' E. injection E as <-. reflexivity.
  - apply set_presenter_sizes. intros p p' E. unfold deregister_property in E.
    destruct (type_lookup k (pr_types p)); [|discriminate]. injection E as <-. reflexivity.
  - apply set_presenter_sizes. intros p p' E. injection E as <-. reflexivity.
Qed.

Lemma C20_size_proof w w' i g : reachable_world w -> later w w' -> game_at w i = Some g ->
  exists g', game_at w' i = Some g' /\ g_root g' = g_root g /\ g_size g' = g_size g /\
    1 <= g_size g' <= 26 /\
    match get_raw_list w' (g_root g') (str "SZ") with
    | Ok vs => exists v r, vs = v :: r /\ py_int v = Ok (g_size g')
    | Err e => e = KeyError /\ g_size g' = 19
    end.
Proof.
  intros R La G. assert (reachable_world w' /\ sizes_kept w w') as [R' SK].
  { clear G. induction La as [|w' o La [R' SK] Ap]; [split; auto; apply sizes_kept_eq; auto|].
    split; [constructor; auto|]. eapply sizes_kept_trans; [exact SK|]. apply exec_sizes; auto. apply reachable_inv; auto. }
  destruct (SK _ _ G) as (g' & G' & Rt & Sz). exists g'. split; auto. split; auto. split; auto.
  destruct (inv_size _ (reachable_inv _ R') _ _ G') as (B & x & Ex & A). split; auto.
  unfold get_raw_list. rewrite Ex. unfold sz_agrees in A. destruct (dget (str "SZ") (t_props x)); auto.
Qed.

(** ** Moves and setup stones *)

Lemma drop_keys_changes w n ks : (n < List.length (w_nodes w))%nat ->
  only_changes w n ks (drop_keys w n ks) /\ (forall k, In k ks -> get_raw_list (drop_keys w n ks) n k = Err KeyError).
Proof.
  intros L. destruct (node_at_some _ _ L) as (x & E). unfold drop_keys. rewrite E.
  assert (forall (m : pmap) k, dget k (fold_left (fun m k => ddel k m) ks m) = if existsb (bytes_eqb k) ks then None else dget k m) as D.
  { clear. induction ks as [|a ks IH]; simpl; intros m k; auto. rewrite IH, dget_ddel.
    destruct (bytes_eqb k a); simpl; [destruct (existsb (bytes_eqb k) ks); auto|auto]. }
  assert (forall k, existsb (bytes_eqb k) ks = true <-> In k ks) as EX.
  { intros k. rewrite existsb_exists. split.
    - intros (y & H & Ey). destruct (bytes_eqb_spec k y); [congruence|discriminate].
    - intros H. exists k. split; auto. apply bytes_eqb_refl. }
  split.
  - apply put_props_changes; auto. intros k N. rewrite D. destruct (existsb (bytes_eqb k) ks) eqn:X; auto.
    apply EX in X. contradiction.
  - intros k H. unfold get_raw_list. rewrite (put_props_at _ _ _ _ _ E), Nat.eqb_refl. cbn [with_props t_props].
    rewrite D. apply EX in H. rewrite H. reflexivity.
Qed.

Lemma only_changes_trans w n ks w' ks' w'' : only_changes w n ks w' -> only_changes w' n ks' w'' ->
  only_changes w n (ks ++ ks') w''.
Proof.
  intros (A1 & A2 & A3 & A4 & A5) (B1 & B2 & B3 & B4 & B5). split; [|split; [|split; [|split]]].
  - intros m k H. rewrite B1, A1; auto; destruct H as [H|H]; auto; right; intros X; apply H; apply in_app_iff; auto.
  - intros m t. rewrite A2. auto.
  - intros m p. rewrite A3. auto.
  - intros m p. rewrite A4. auto.
  - congruence.
Qed.

Lemma only_changes_incl w n ks ks' w' : only_changes w n ks w' -> incl ks ks' -> only_changes w n ks' w'.
Proof.
  intros (A1 & A2) I. split; auto. intros m k [H|H]; apply A1; auto.
Qed.
