(** Proofs about loading games and about whole histories (C19, C20). *)
From Verif Require Import Base Bytes PyStr Dict SgfGrammarModel SgfGrammarSpec SgfGrammarProofs SgfTextProofs
  SgfErrorProofs SgfTreeConvModel SgfTreeConvProofs CommonModel SgfPropsModel SgfPropsSpec SgfPropsProofs
  SgfValueSpec SgfValueProofs SgfTreeModel SgfTreeSpec SgfTreeProofs SgfTreeOpsProofs SgfNodeProofs.

Lemma Forall2_mono {A B} (R R' : A -> B -> Prop) l l' :
  (forall a b, R a b -> R' a b) -> Forall2 R l l' -> Forall2 R' l l'.
Proof. intros H. induction 1; constructor; auto. Qed.

(** The SZ property [m] of a root agrees with the board size. *)
Definition sz_agrees (size : Z) (m : pmap) : Prop :=
  match dget (str "SZ") m with
  | None => size = 19
  | Some vs => exists v r, vs = v :: r /\ py_int v = Ok size
  end.

Record inv (w : world) : Prop := mkInv {
  inv_wf : wf w;
  inv_props : forall n x, node_at w n = Some x -> parsed_node (t_props x);
  inv_size : forall i g, game_at w i = Some g -> 1 <= g_size g <= 26 /\
    exists x, node_at w (g_root g) = Some x /\ sz_agrees (g_size g) (t_props x)
}.

Lemma inv_empty : inv empty_world.
Proof.
  assert (forall n, node_at empty_world n = None) as E by (intros [|n]; reflexivity).
  assert (forall n, game_at empty_world n = None) as G by (intros [|n]; reflexivity).
  constructor; [constructor|..]; intros *; intros H; try (rewrite E in H; discriminate); rewrite G in H; discriminate.
Qed.

Lemma edited_inv w n w' : edited w n w' -> inv w -> inv w'.
Proof.
  intros Ed [W PR SZ]. constructor.
  - eapply edited_wf; eauto.
  - destruct Ed as (x & pr & m & E & P & -> & G & S). intros k y Ek. rewrite (put_props_at _ _ _ _ _ E) in Ek.
    destruct (Nat.eqb_spec n k) as [<-|N]; [|eauto]. injection Ek as <-. simpl. eauto.
  - destruct Ed as (x & pr & m & E & P & -> & G & S). intros i g Gi.
    change (game_at w i = Some g) in Gi. destruct (SZ _ _ Gi) as (B & y & Ey & A). split; auto.
    rewrite (put_props_at _ _ _ _ _ E). destruct (Nat.eqb_spec n (g_root g)) as [En|N]; [|eauto].
    eexists. split; [reflexivity|]. cbn [with_props t_props].
    rewrite <- En in Ey. rewrite E in Ey. injection Ey as <-.
    destruct (wf_game _ W _ _ Gi) as (z & Ez & _ & Oz). rewrite <- En, E in Ez. injection Ez as <-.
    assert (c_size (pr_context pr) = g_size g) as Es.
    { unfold pres_of in P. rewrite Oz, Gi in P. simpl in P. injection P as <-. reflexivity. }
    rewrite Es in S. unfold sz_agrees in *. destruct S as [S|[S|[S1 S2]]].
    + rewrite S. exact A.
    + rewrite S. exists (str_int (g_size g)), []. split; auto. apply py_int_str.
    + rewrite S1. exact S2.
Qed.

(** ** Allocation *)

Lemma alloc_at w size e m k : node_at (alloc_game w size e m) k =
  if Nat.eqb k (List.length (w_nodes w)) then Some (mkT (List.length (w_games w)) None [] m) else node_at w k.
Proof. unfold node_at, alloc_game. simpl. apply nth_snoc. Qed.

Lemma alloc_game_at w size e m k : game_at (alloc_game w size e m) k =
  if Nat.eqb k (List.length (w_games w)) then Some (mkGame (List.length (w_nodes w)) (new_presenter size e)) else game_at w k.
Proof. unfold game_at, alloc_game. simpl. apply nth_snoc. Qed.

Lemma game_at_lt w i g : game_at w i = Some g -> (i < List.length (w_games w))%nat.
Proof. unfold game_at. intros E. apply nth_error_Some. congruence. Qed.

Lemma alloc_keeps w size e m : keeps_parents w (alloc_game w size e m).
Proof.
  intros n x E. rewrite alloc_at. pose proof (node_at_lt _ _ _ E).
  destruct (Nat.eqb_spec n (List.length (w_nodes w))); [lia|]. eauto.
Qed.

Lemma alloc_wf w size e m : wf w -> wf (alloc_game w size e m).
Proof.
  intros W.
  assert (forall n x, node_at w n = Some x -> node_at (alloc_game w size e m) n = Some x) as ON.
  { intros n x E. rewrite alloc_at. pose proof (node_at_lt _ _ _ E).
    destruct (Nat.eqb_spec n (List.length (w_nodes w))); [lia|]. auto. }
  assert (forall n x, game_at w n = Some x -> game_at (alloc_game w size e m) n = Some x) as OG.
  { intros n x E. rewrite alloc_game_at. pose proof (game_at_lt _ _ _ E).
    destruct (Nat.eqb_spec n (List.length (w_games w))); [lia|]. auto. }
  constructor.
  - intros n x E. rewrite alloc_at in E. destruct (Nat.eqb_spec n (List.length (w_nodes w))) as [->|N].
    + injection E as <-. simpl. rewrite alloc_game_at, Nat.eqb_refl. eauto.
    + destruct (wf_owner _ W _ _ E) as (g & G). eauto.
  - intros n x E P. rewrite alloc_at in E. destruct (Nat.eqb_spec n (List.length (w_nodes w))) as [->|N].
    + injection E as <-. simpl. rewrite alloc_game_at, Nat.eqb_refl. eauto.
    + destruct (wf_root _ W _ _ E P) as (g & G & R). eauto.
  - intros i g G. rewrite alloc_game_at in G. destruct (Nat.eqb_spec i (List.length (w_games w))) as [->|N].
    + injection G as <-. simpl. rewrite alloc_at, Nat.eqb_refl. eauto.
    + destruct (wf_game _ W _ _ G) as (x & E & P & O). eauto.
  - intros n x p E P. rewrite alloc_at in E. destruct (Nat.eqb_spec n (List.length (w_nodes w))) as [->|N].
    + injection E as <-. discriminate.
    + destruct (wf_parent _ W _ _ _ E P) as (y & Ey & O). eauto.
  - intros p y c E H. rewrite alloc_at in E. destruct (Nat.eqb_spec p (List.length (w_nodes w))) as [->|N].
    + injection E as <-. destruct H.
    + destruct (wf_kids _ W _ _ _ E H) as (x & Ex & P). eauto.
  - intros p y E. rewrite alloc_at in E. destruct (Nat.eqb_spec p (List.length (w_nodes w))) as [->|N].
    + injection E as <-. constructor.
    + eapply wf_nodup; eauto.
  - intros n x E. rewrite alloc_at in E. destruct (Nat.eqb_spec n (List.length (w_nodes w))) as [->|N].
    + exists [List.length (w_nodes w)]. eapply up_top; [rewrite alloc_at, Nat.eqb_refl; reflexivity|]. reflexivity.
    + destruct (wf_up _ W _ _ E) as (l & U). exists l. eapply keeps_up; eauto. apply alloc_keeps.
Qed.

Lemma alloc_inv w size e m : 1 <= size <= 26 -> parsed_node m -> sz_agrees size m -> inv w -> inv (alloc_game w size e m).
Proof.
  intros B PM S [W PR SZ]. constructor.
  - apply alloc_wf. auto.
  - intros n x E. rewrite alloc_at in E. destruct (Nat.eqb_spec n (List.length (w_nodes w))) as [->|N]; eauto.
    injection E as <-. auto.
  - intros i g G. rewrite alloc_game_at in G. destruct (Nat.eqb_spec i (List.length (w_games w))) as [->|N].
    + injection G as <-. unfold g_size. simpl. split; auto. rewrite alloc_at, Nat.eqb_refl. eexists. split; [reflexivity|]. auto.
    + destruct (SZ _ _ G) as (B' & x & E & A). split; auto. exists x. split; auto. rewrite alloc_at.
      pose proof (node_at_lt _ _ _ E). destruct (Nat.eqb_spec (g_root g) (List.length (w_nodes w))); [lia|auto].
Qed.

(** ** Building the nodes of a loaded game *)

(** [w'] has all the nodes of [w], with the same properties. *)
Definition extends (w w' : world) : Prop :=
  w_games w' = w_games w /\ (List.length (w_nodes w) <= List.length (w_nodes w'))%nat /\
  forall n x, node_at w n = Some x -> exists x', node_at w' n = Some x' /\ t_props x' = t_props x /\
    t_owner x' = t_owner x /\ t_parent x' = t_parent x.

Lemma extends_refl w : extends w w.
Proof. split; auto. split; auto. intros n x E. exists x. auto. Qed.

Lemma extends_trans w w' w'' : extends w w' -> extends w' w'' -> extends w w''.
Proof.
  intros (A & B & C) (A' & B' & C'). split; [congruence|]. split; [lia|]. intros n x E.
  destruct (C _ _ E) as (x' & E' & P1 & P2 & P3). destruct (C' _ _ E') as (x'' & E'' & Q1 & Q2 & Q3).
  exists x''. repeat split; congruence.
Qed.

Lemma new_node_extends w p i m x : node_at w p = Some x -> extends w (new_node w p i m).
Proof.
  intros E. split; [eapply new_node_games; eauto|]. split; [rewrite (new_node_length w p i m x E); lia|].
  intros n y En. rewrite (new_node_at w p i m x E). pose proof (node_at_lt _ _ _ En).
  destruct (Nat.eqb_spec n p) as [->|N].
  - rewrite E in En. injection En as <-. eexists. split; [reflexivity|]. auto.
  - destruct (Nat.eqb_spec n (List.length (w_nodes w))); [lia|]. exists y. auto.
Qed.

(** Every property map of the tree satisfies [P]. *)
Inductive all_nodes (P : pmap -> Prop) : ntree -> Prop :=
| all_nodes_intro m ks : P m -> Forall (all_nodes P) ks -> all_nodes P (NT m ks).

(** [t] is stored at [n], in nodes from [lo] on. *)
Inductive stored (lo : nat) (w : world) : nat -> ntree -> Prop :=
| stored_intro n x ts : (lo <= n)%nat -> node_at w n = Some x -> Forall2 (stored lo w) (t_kids x) ts ->
    stored lo w n (NT (t_props x) ts).

Lemma stored_frame lo w w' : (forall n x, (lo <= n)%nat -> node_at w n = Some x -> node_at w' n = Some x) ->
  forall t n, stored lo w n t -> stored lo w' n t.
Proof.
  intros H. induction t as [m ks IH] using ntree_ind'. intros n S. inversion S as [? x ts L E F]; subst.
  econstructor; eauto. clear E S. revert IH. induction F as [|a b l l' Hab F IHF]; intros IH; constructor;
    inversion IH; subst; auto.
Qed.

Lemma stored_data lo w : forall t n, stored lo w n t -> data_of w n t.
Proof.
  induction t as [m ks IH] using ntree_ind'. intros n S. inversion S as [? x ts L E F]; subst.
  econstructor; eauto. clear E S. revert IH. induction F as [|a b l l' Hab F IHF]; intros IH; constructor;
    inversion IH; subst; auto.
Qed.

Lemma stored_weaken lo lo' w : (lo' <= lo)%nat -> forall t n, stored lo w n t -> stored lo' w n t.
Proof.
  intros L0. induction t as [m ks IH] using ntree_ind'. intros n S. inversion S as [? x ts L E F]; subst.
  econstructor; eauto; [lia|]. clear E S. revert IH. induction F as [|a b l l' Hab F IHF]; intros IH; constructor;
    inversion IH; subst; auto.
Qed.

Definition load_kids (ks : list ntree) (p : nat) (w : world) : world :=
  fold_left (fun w' k => load_below k p w') ks w.

(** What [load_below] does: the tree is stored in new nodes, its top is the last child of
    [p], other nodes are as before. *)
Definition loads (t : ntree) : Prop := forall p w x, node_at w p = Some x -> wf w ->
  let w' := load_below t p w in
  wf w' /\ extends w w' /\
  node_at w' p = Some (with_kids (t_kids x ++ [List.length (w_nodes w)]) x) /\
  (forall n y, n <> p -> node_at w n = Some y -> node_at w' n = Some y) /\
  stored (List.length (w_nodes w)) w' (List.length (w_nodes w)) t /\
  (forall P : pmap -> Prop, all_nodes P t -> forall n y, node_at w' n = Some y ->
     (n < List.length (w_nodes w))%nat \/ P (t_props y)).

Definition loads_kids (ks : list ntree) : Prop := forall p w x, node_at w p = Some x -> wf w ->
  let w' := load_kids ks p w in
  wf w' /\ extends w w' /\
  (exists cs, node_at w' p = Some (with_kids (t_kids x ++ cs) x) /\
     Forall2 (stored (List.length (w_nodes w)) w') cs ks) /\
  (forall n y, n <> p -> node_at w n = Some y -> node_at w' n = Some y) /\
  (forall P : pmap -> Prop, Forall (all_nodes P) ks -> forall n y, node_at w' n = Some y ->
     (n < List.length (w_nodes w))%nat \/ P (t_props y)).

Lemma load_kids_ok ks : Forall loads ks -> loads_kids ks.
Proof.
  unfold loads_kids, load_kids. induction ks as [|k ks IH]; intros F p w x E W.
  - cbn [fold_left]. split; [auto|]. split; [apply extends_refl|]. split; [|split; auto].
    + exists []. rewrite app_nil_r. split; [rewrite E; destruct x; reflexivity|constructor].
    + intros P _ n y En. left. eapply node_at_lt; eauto.
  - inversion F as [|? ? F1 F2]; subst.
    destruct (F1 p w x E W) as (W1 & X1 & E1 & O1 & S1 & P1). cbn [fold_left].
    set (w1 := load_below k p w) in *.
    destruct (IH F2 p w1 _ E1 W1) as (W2 & X2 & (cs & E2 & S2) & O2 & P2).
    set (w2 := fold_left (fun w' k => load_below k p w') ks w1) in *.
    pose proof (node_at_lt _ _ _ E) as Lp.
    destruct X1 as (G1 & L1 & C1) eqn:EX1. clear EX1. pose proof X2 as X2'.
    destruct X2 as (G2 & L2 & C2).
    split; [auto|]. split.
    + eapply extends_trans; [|exact X2']. split; [auto|split; auto].
    + split; [|split].
      * exists (List.length (w_nodes w) :: cs). split.
        -- rewrite E2. simpl. rewrite <- app_assoc. reflexivity.
        -- constructor.
           ++ eapply stored_frame; [|exact S1]. intros n y Ln En. apply O2; auto. lia.
           ++ eapply Forall2_mono; [|exact S2]. intros a b H. eapply stored_weaken; eauto.
      * intros n y N En. apply O2; auto.
      * intros P A n y En. inversion A as [|? ? A1 A2]; subst.
        destruct (P2 P A2 n y En) as [Ln|H]; auto.
        destruct (node_at_some w1 n Ln) as (y1 & Ey1).
        destruct (C2 _ _ Ey1) as (y2 & Ey2 & Q & _). rewrite En in Ey2. injection Ey2 as <-.
        rewrite Q. eauto.
Qed.

Lemma load_below_ok t : loads t.
Proof.
  induction t as [m ks IH] using ntree_ind'. intros p w x E W. cbn [load_below].
  set (c := List.length (w_nodes w)).
  pose proof (new_node_wf w p None m x E W) as W0.
  pose proof (new_node_extends w p None m x E) as X0.
  pose proof (new_node_leaf w p None m x E) as E0. fold c in E0.
  pose proof (new_node_at w p None m x E) as A0.
  pose proof (node_at_lt _ _ _ E) as Lp. fold c in Lp, A0.
  set (w0 := new_node w p None m) in *.
  destruct (load_kids_ok ks IH c w0 _ E0 W0) as (W1 & X1 & (cs & E1 & S1) & O1 & P1).
  unfold load_kids in *. set (w1 := fold_left (fun w' k => load_below k c w') ks w0) in *.
  assert (List.length (w_nodes w0) = S c) as L0 by (apply (new_node_length w p None m x E)).
  split; [auto|]. split; [eapply extends_trans; eauto|]. split; [|split; [|split]].
  - apply O1; [lia|]. rewrite A0, Nat.eqb_refl. reflexivity.
  - intros n y N En. pose proof (node_at_lt _ _ _ En). apply O1; [unfold c; lia|]. rewrite A0.
    destruct (Nat.eqb_spec n p); [congruence|]. destruct (Nat.eqb_spec n c); [unfold c in *; lia|]. auto.
  - simpl in E1.
    change m with (t_props (with_kids cs (mkT (t_owner x) (Some p) [] m))).
    eapply stored_intro; [lia|exact E1|].
    simpl. eapply Forall2_mono; [|exact S1]. intros a b H. eapply stored_weaken; [|eauto]. lia.
  - intros P A n y En. inversion A as [? ? A1 A2]; subst.
    destruct (P1 P A2 n y En) as [Ln|H]; auto. rewrite L0 in Ln.
    destruct (Nat.eq_dec n c) as [->|N]; [|left; fold c; lia].
    right. rewrite E1 in En. injection En as <-. exact A1.
Qed.

Lemma load_kids_all ks : loads_kids ks.
Proof. apply load_kids_ok. rewrite Forall_forall. intros. apply load_below_ok. Qed.

(** ** The node tree of a loaded game *)

Lemma chain_denotes sq ch ts : sq <> [] -> Forall2 denotes ch ts -> denotes (CT sq ch) (chain_nodes sq ts).
Proof.
  intros N F. induction sq as [|m sq IH]; [congruence|]. destruct sq as [|m' sq].
  - simpl. constructor. auto.
  - apply den_more. apply IH. discriminate.
Qed.

Lemma ntree_of_denotes t : seqs_ok t -> denotes t (ntree_of t).
Proof.
  induction t as [sq ch IH] using ctree_ind'. intros S. inversion S as [? ? N F]; subst. simpl.
  apply chain_denotes; auto. clear N S. induction F as [|a l Ha F IHF]; simpl; constructor; inversion IH; subst; auto.
Qed.

Lemma ntree_of_all (P : pmap -> Prop) t :
  (forall m, node_in t m -> P m) -> seqs_ok t -> all_nodes P (ntree_of t).
Proof.
  induction t as [sq ch IH] using ctree_ind'. intros H S. inversion S as [? ? N F]; subst. simpl.
  assert (Forall (all_nodes P) (map ntree_of ch)) as K.
  { assert (forall c m, In c ch -> node_in c m -> P m) as H2 by (intros c m Hc Hm; apply H; eapply nt_below; eauto).
    clear H N S. induction F as [|a l Ha F IHF]; simpl; constructor.
    - inversion IH as [|? ? A B]; subst. apply A; auto. intros m Hm. eapply H2; eauto. left. auto.
    - inversion IH as [|? ? A B]; subst. apply IHF; auto. intros c m Hc. apply H2. right. auto. }
  assert (Forall P sq) as Q.
  { rewrite Forall_forall. intros m Hm. apply H. constructor. auto. }
  clear H S. induction Q as [|m sq Pm Q IHQ]; [congruence|]. simpl. destruct sq as [|m' sq].
  - constructor; auto.
  - constructor; auto. constructor; [|constructor]. apply IHQ. discriminate.
Qed.

Lemma parsed_seqs_ok t : parsed_tree t -> seqs_ok t.
Proof.
  induction t as [sq ch IH] using ctree_ind'. intros S. inversion S as [? ? N _ F]; subst. constructor; auto.
  clear N S. induction F; constructor; inversion IH; subst; auto.
Qed.

Lemma parsed_all t : parsed_tree t -> all_nodes parsed_node (ntree_of t).
Proof.
  intros S. apply ntree_of_all; auto.
  - intros m H. clear -S H. induction H as [sq ch m Hm|sq ch c m Hc H IH]; inversion S as [? ? N F G]; subst.
    + rewrite Forall_forall in F. auto.
    + rewrite Forall_forall in G. auto.
  - apply parsed_seqs_ok. auto.
Qed.

Lemma extends_inv w w' : extends w w' -> wf w' ->
  (forall n y, node_at w' n = Some y -> (n < List.length (w_nodes w))%nat \/ parsed_node (t_props y)) ->
  inv w -> inv w'.
Proof.
  intros (G & L & C) W' P [W PR SZ]. constructor; auto.
  - intros n y E. destruct (P n y E) as [Ln|H]; auto. destruct (node_at_some _ _ Ln) as (x & Ex).
    destruct (C _ _ Ex) as (y' & Ey' & Q & _). rewrite E in Ey'. injection Ey' as <-. rewrite Q. eauto.
  - intros i g Gi. unfold game_at in Gi. rewrite G in Gi. destruct (SZ i g Gi) as (B & x & Ex & A).
    split; auto. destruct (C _ _ Ex) as (y' & Ey' & Q & _). exists y'. split; auto. rewrite Q. auto.
Qed.

Lemma ntree_of_root t m sq ch : t = CT (m :: sq) ch -> exists ks, ntree_of t = NT m ks.
Proof. intros ->. simpl. destruct sq; eauto. Qed.

Lemma load_game_inv w t e ov : inv w -> parsed_tree t -> inv (fst (load_game w t e ov)).
Proof.
  intros I PT. unfold load_game. destruct t as [sq ch]. cbn [c_sequence].
  destruct sq as [|m sq]; [exact I|].
  destruct (match dget (str "SZ") m with None => Ok 19 | Some [] => Err IndexError | Some (s :: _) => py_int s end)
    as [size|ex] eqn:ES; [|exact I].
  destruct (negb ((1 <=? size) && (size <=? 26))) eqn:EB; [exact I|].
  destruct (ntree_of_root _ m sq ch eq_refl) as (ks & EN). rewrite EN.
  assert (1 <= size <= 26) as B.
  { apply negb_false_iff, andb_true_iff in EB. destruct EB as [B1 B2]. apply Z.leb_le in B1, B2. lia. }
  pose proof (parsed_all _ PT) as PA. rewrite EN in PA. inversion PA as [? ? PM PK]; subst.
  assert (inv (alloc_game w size e m)) as I0.
  { apply alloc_inv; auto. unfold sz_agrees. destruct (dget (str "SZ") m) as [[|v r]|]; [discriminate| |congruence].
    exists v, r. auto. }
  assert (node_at (alloc_game w size e m) (List.length (w_nodes w)) = Some (mkT (List.length (w_games w)) None [] m)) as E0.
  { rewrite alloc_at, Nat.eqb_refl. reflexivity. }
  destruct (load_kids_all ks _ _ _ E0 (inv_wf _ I0)) as (W1 & X1 & _ & _ & P1). unfold load_kids in *.
  set (w1 := fold_left (fun w' k => load_below k (List.length (w_nodes w)) w') ks (alloc_game w size e m)) in *.
  assert (inv w1) as I1 by (eapply extends_inv; eauto).
  destruct ov; [|exact I1]. eapply edited_inv; [|exact I1]. apply set_raw_edits; auto.
  destruct X1 as (_ & L & _). unfold alloc_game in L. simpl in L. rewrite app_length in L. simpl in L. lia.
Qed.

(** The properties of a new game's root. *)
Definition new_root_props (size : Z) (e : encoding) : pmap :=
  [(str "FF", [str "4"]); (str "GM", [str "1"]); (str "SZ", [str_int size]); (str "CA", [encoding_name e])].

Lemma new_game_eq w size e : 1 <= size <= 26 ->
  new_game w size e = (alloc_game w size e (new_root_props size e), Ok tt).
Proof.
  intros B. unfold new_game. replace (negb ((1 <=? size) && (size <=? 26))) with false by (symmetry; apply negb_false_iff; lia).
  set (root := List.length (w_nodes w)). set (w0 := alloc_game w size e []).
  assert (forall m k v, good_ident k -> good_value v ->
            (k = str "SZ" -> v = str_int size) ->
            set_raw (alloc_game w size e m) root k v = done (alloc_game w size e (dset k [v] m))) as ST.
  { intros m k v Gk Gv Hs. unfold set_raw, on_node. rewrite alloc_at. unfold root. rewrite Nat.eqb_refl.
    unfold pres_of. simpl t_owner. rewrite alloc_game_at, Nat.eqb_refl. cbn [option_map].
    apply good_ident_valid in Gk. apply good_value_valid in Gv. rewrite Gk, Gv. cbn [negb].
    unfold set_raw_list_core. cbn [g_pres new_presenter pr_context c_size].
    assert (bytes_eqb k (str "SZ") && negb (bytes_eqb v (str_int size)) = false) as ->.
    { destruct (bytes_eqb_spec k (str "SZ")) as [->|N]; auto. rewrite Hs by auto. rewrite bytes_eqb_refl. reflexivity. }
    unfold done, put_props, set_node, alloc_game, with_props. simpl. f_equal. f_equal.
    clear. induction (w_nodes w) as [|y l IH]; simpl; [reflexivity|]. rewrite IH. reflexivity. }
  unfold w0. rewrite ST; [|split; [discriminate|split; [vm_compute; lia|repeat constructor; vm_compute; discriminate]]
                         |apply good_value_valid; reflexivity|discriminate].
  cbn [then_do done].
  rewrite ST; [|split; [discriminate|split; [vm_compute; lia|repeat constructor; vm_compute; discriminate]]
              |apply good_value_valid; reflexivity|discriminate].
  cbn [then_do done].
  rewrite ST; [|split; [discriminate|split; [vm_compute; lia|repeat constructor; vm_compute; discriminate]]
              |apply str_int_no_colon|auto].
  cbn [then_do done].
  rewrite ST; [|split; [discriminate|split; [vm_compute; lia|repeat constructor; vm_compute; discriminate]]
              |destruct e; apply good_value_valid; reflexivity|discriminate].
  reflexivity.
Qed.

Lemma new_game_inv w size e : inv w -> inv (fst (new_game w size e)).
Proof.
  intros I. destruct ((1 <=? size) && (size <=? 26)) eqn:EB; [|unfold new_game; rewrite EB; exact I].
  rewrite new_game_eq by lia. apply alloc_inv; auto; [lia| |].
  - split; [repeat constructor; simpl; intuition discriminate|]. unfold new_root_props.
    repeat (constructor; [split; [split; [vm_compute; lia|repeat constructor; vm_compute; discriminate]|split; [discriminate|constructor; [|constructor]]]|]).
    + apply good_value_valid; reflexivity.
    + apply good_value_valid; reflexivity.
    + apply str_int_no_colon.
    + cbn [snd]. destruct e; apply good_value_valid; reflexivity.
    + constructor.
  - unfold sz_agrees. change (dget (str "SZ") (new_root_props size e)) with (Some [str_int size]).
    exists (str_int size), []. split; auto. apply py_int_str.
Qed.

Lemma set_presenter_inv w g f : inv w ->
  (forall p p', f p = Ok p' -> pr_context p' = pr_context p) -> inv (fst (set_presenter w g f)).
Proof.
  intros I H. unfold set_presenter. destruct (game_at w g) as [x|] eqn:E; [|exact I].
  destruct (f (g_pres x)) as [p|] eqn:F; [|exact I]. cbn [fst done]. destruct I as [W PR SZ].
  assert (same_links w (mkW (w_nodes w) (update g (mkGame (g_root x) p) (w_games w)))) as SL.
  { split; [reflexivity|]. simpl. eapply map_update; eauto. }
  constructor.
  - eapply same_links_wf; eauto.
  - exact PR.
  - intros i gi Gi. unfold game_at in Gi. simpl in Gi. rewrite nth_update in Gi.
    destruct (Nat.eqb_spec g i) as [<-|N].
    + destruct (Nat.ltb g (List.length (w_games w))); [|discriminate]. injection Gi as <-.
      unfold g_size. simpl. rewrite (H _ _ F). apply (SZ _ _ E).
    + apply (SZ _ _ Gi).
Qed.

Lemma same_data_inv w w' : same_data w w' -> wf w' -> inv w -> inv w'.
Proof.
  intros (G & L & C) W' [W PR SZ]. constructor; auto.
  - intros n y E. assert (n < List.length (w_nodes w))%nat as Ln by (rewrite <- L; eapply node_at_lt; eauto).
    destruct (node_at_some _ _ Ln) as (x & Ex). destruct (C _ _ Ex) as (y' & Ey' & Q & _).
    rewrite E in Ey'. injection Ey' as <-. rewrite Q. eauto.
  - intros i g Gi. unfold game_at in Gi. rewrite G in Gi. destruct (SZ i g Gi) as (B & x & Ex & A).
    split; auto. destruct (C _ _ Ex) as (y' & Ey' & Q & _). exists y'. split; auto. rewrite Q. auto.
Qed.

Lemma same_owner_dec w n np : (n < List.length (w_nodes w))%nat -> (np < List.length (w_nodes w))%nat ->
  (exists g, owner_is w n g /\ owner_is w np g) \/ ~ (exists g, owner_is w n g /\ owner_is w np g).
Proof.
  intros L1 L2. destruct (node_at_some _ _ L1) as (x & Ex). destruct (node_at_some _ _ L2) as (y & Ey).
  destruct (Nat.eq_dec (t_owner x) (t_owner y)) as [E|N].
  - left. exists (t_owner x). split; [exists x; auto|exists y; auto].
  - right. intros (g & (x' & Ex' & Ox) & (y' & Ey' & Oy)). congruence.
Qed.

Lemma above_dec w n np : wf w -> (np < List.length (w_nodes w))%nat -> above w n np \/ ~ above w n np.
Proof.
  intros W L. destruct (node_at_some _ _ L) as (x & Ex). destruct (wf_up _ W _ _ Ex) as (l & U).
  destruct (in_dec Nat.eq_dec n l) as [H|H]; [left|right; intros A; apply H]; apply (above_iff w n np l U); auto.
Qed.

Lemma exec_inv w o : inv w -> applicable w o -> inv (fst (exec w o)).
Proof.
  intros I [AN AG]. pose proof (inv_wf _ I) as W.
  destruct o; cbn [exec op_nodes] in *;
    try (match type of AN with Forall _ [?n] => assert (n < List.length (w_nodes w))%nat as L by (inversion AN; auto) end).
  - apply new_game_inv. auto.
  - unfold load_string. destruct (C11_game_proof s) as [(t & -> & PT)| ->]; [apply load_game_inv; auto|exact I].
  - destruct (node_at_some _ _ L) as (x & E). unfold new_child. rewrite E. cbn [fst done].
    eapply extends_inv; [eapply new_node_extends; eauto|eapply new_node_wf; eauto| |exact I].
    intros m y Em. rewrite (new_node_at _ _ _ _ _ E) in Em.
    destruct (Nat.eqb_spec m n) as [->|N]; [auto|]. destruct (Nat.eqb_spec m (List.length (w_nodes w))).
    + injection Em as <-. right. split; constructor.
    + left. eapply node_at_lt; eauto.
  - destruct (attached_dec w n) as [A|A].
    + destruct (delete_ok w n W A) as (w' & -> & W' & D & _). eapply same_data_inv; eauto.
    + rewrite (delete_err w n W L A). exact I.
  - assert (n < List.length (w_nodes w))%nat as L1 by (inversion AN; auto).
    assert (np < List.length (w_nodes w))%nat as L2 by (inversion AN as [|? ? ? A2]; inversion A2; auto).
    destruct (attached_dec w n) as [A|A]; [|rewrite (reparent_err w n np index W L1 L2); auto].
    destruct (same_owner_dec w n np L1 L2) as [O|O]; [|rewrite (reparent_err w n np index W L1 L2); auto].
    destruct (above_dec w n np W L2) as [B|B]; [rewrite (reparent_err w n np index W L1 L2); auto|].
    destruct (reparent_ok w n np index W A O B) as (w' & -> & W' & D & _). eapply same_data_inv; eauto.
  - eapply edited_inv; [|exact I]. apply set_raw_list_edits; auto.
  - eapply edited_inv; [|exact I]. apply set_raw_edits; auto.
  - eapply edited_inv; [|exact I]. apply set_prop_edits; auto.
  - eapply edited_inv; [|exact I]. apply unset_edits; auto.
  - eapply edited_inv; [|exact I]. apply set_move_edits; auto.
  - eapply edited_inv; [|exact I]. apply set_setup_edits; auto.
  - eapply edited_inv; [|exact I]. apply add_comment_edits; auto.
  - apply set_presenter_inv; auto. intros p p' E. injection E as <-. reflexivity.
  - apply set_presenter_inv; auto. intros p p' E. unfold deregister_property in E.
    destruct (type_lookup k (pr_types p)); [|discriminate]. injection E as <-. reflexivity.
  - apply set_presenter_inv; auto. intros p p' E. injection E as <-. reflexivity.
Qed.

Lemma reachable_inv w : reachable_world w -> inv w.
Proof. induction 1; [apply inv_empty|apply exec_inv; auto]. Qed.
