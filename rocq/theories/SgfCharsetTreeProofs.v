From Verif Require Import Base Bytes PyStr Dict BoardSpec BoardModel SgfGrammarSpec SgfGrammarModel
  SgfGrammarProofs SgfParserProofs SgfTextProofs SgfTreeConvModel SgfTreeConvProofs SgfErrorProofs
  CommonModel CommonProofs DiagramProofs SgfPropsModel SgfPropsSpec
  SgfPropsProofs SgfValueSpec SgfValueProofs SgfTreeModel SgfTreeSpec SgfTreeProofs SgfGameProofs SgfSaveProofs
  SgfCharsetModel SgfCharsetSpec SgfCharsetProofs SgfCharsetReadProofs.

(** * Predicates that respect ASCII characters *)

Definition cvalue (t : ctree) (v : bytes) : Prop :=
  exists m k vs, node_in t m /\ In (k, vs) m /\ In v vs.

Lemma upper_ascii k : Forall (fun c => 65 <= ord c <= 90) k -> ascii_only k.
Proof. apply Forall_impl. lia. Qed.

Lemma ws_ascii w : ws w -> ascii_only w.
Proof. apply Forall_impl. intros c H. unfold is_space in H. lia. Qed.

Section Resp.
Context (P : bytes -> Prop) (Pnil : P [])
  (Psplit : forall a c b, ord c < 128 -> (P (a ++ c :: b) <-> P a /\ P b)).

Lemma P_skip w s : ascii_only w -> (P (w ++ s) <-> P s).
Proof.
  induction 1 as [|c w L H IH]; [tauto|]. cbn [app]. change (c :: w ++ s) with ([] ++ c :: (w ++ s)).
  rewrite Psplit by auto. tauto.
Qed.

Lemma P_values vs rest :
  P (flat_map (fun v => char_lb :: v ++ [char_rb]) vs ++ rest) <-> Forall P vs /\ P rest.
Proof.
  induction vs as [|v vs IH]; cbn [flat_map app].
  - split; [intros; split; [constructor|auto]|tauto].
  - change (P ([char_lb] ++ (((v ++ [char_rb]) ++ flat_map (fun v0 => char_lb :: v0 ++ [char_rb]) vs) ++ rest))
      <-> Forall P (v :: vs) /\ P rest).
    rewrite P_skip by ascii_lit. rewrite <- !app_assoc. cbn [app]. rewrite Psplit by (vm_compute; reflexivity).
    rewrite IH, Forall_cons_iff. tauto.
Qed.

Lemma P_prop k vs rest : ascii_only k -> (P (prop_piece (k, vs) ++ rest) <-> Forall P vs /\ P rest).
Proof. intros A. unfold prop_piece. cbn [fst snd]. rewrite <- app_assoc, P_skip by auto. apply P_values. Qed.

(** A piece of text that can be cut off. *)
Definition cuttable (p : bytes) : Prop := forall rest, P (p ++ rest) <-> P p /\ P rest.

Lemma P_layout ps out rest : layout ps out -> Forall cuttable ps ->
  (P (out ++ rest) <-> Forall P ps /\ P rest).
Proof.
  intros L. revert rest. induction L as [|w p ps out W L IH]; intros rest F.
  - cbn [app]. split; [intros; split; [constructor|auto]|tauto].
  - apply Forall_cons_iff in F. destruct F as [C F]. rewrite <- !app_assoc, P_skip by (apply ws_ascii; auto).
    rewrite (C (out ++ rest)), (IH rest F), Forall_cons_iff. tauto.
Qed.

Lemma ascii_P p : ascii_only p -> P p.
Proof. intros A. rewrite <- (app_nil_r p). apply P_skip; auto. Qed.

Lemma ascii_cuttable p : ascii_only p -> cuttable p.
Proof. intros A rest. rewrite P_skip by auto. pose proof (ascii_P p A). tauto. Qed.

Lemma prop_P k vs : ascii_only k -> (P (prop_piece (k, vs)) <-> Forall P vs).
Proof. intros A. rewrite <- (app_nil_r (prop_piece (k, vs))), P_prop by auto. tauto. Qed.

Lemma prop_cuttable k vs : ascii_only k -> cuttable (prop_piece (k, vs)).
Proof. intros A rest. rewrite P_prop, prop_P by auto. tauto. Qed.

Definition ascii_idents (m : pmap) : Prop := Forall (fun kv => ascii_only (fst kv)) m.

Lemma node_P m : ascii_idents m ->
  Forall cuttable (node_pieces m) /\
  (Forall P (node_pieces m) <-> forall k vs v, In (k, vs) m -> In v vs -> P v).
Proof.
  intros A. unfold node_pieces. assert (ascii_only [";"%char]) as D by ascii_lit.
  unfold ascii_idents in A. rewrite Forall_forall in A. split.
  - constructor; [apply ascii_cuttable; auto|]. apply Forall_map, Forall_forall. intros [k vs] I.
    apply (proj1 (sort_props_In _ _)) in I. apply prop_cuttable. apply (A _ I).
  - rewrite Forall_cons_iff, Forall_map, Forall_forall. split.
    + intros [_ H] k vs v I Iv. apply sort_props_In in I as I'. specialize (H _ I'). cbn in H.
      apply prop_P in H; [|apply (A _ I)]. rewrite Forall_forall in H. auto.
    + intros H. split; [apply ascii_P; auto|]. intros [k vs] I. apply (proj1 (sort_props_In _ _)) in I.
      apply prop_P; [apply (A _ I)|]. apply Forall_forall. intros v Iv. eapply H; eauto.
Qed.

Inductive ascii_tree : ctree -> Prop :=
| ascii_tree_intro sq ch : Forall ascii_idents sq -> Forall ascii_tree ch -> ascii_tree (CT sq ch).

Lemma tree_P t : ascii_tree t ->
  Forall cuttable (tree_pieces t) /\ (Forall P (tree_pieces t) <-> forall v, cvalue t v -> P v).
Proof.
  induction t as [sq ch IH] using ctree_ind'. intros A. inversion A as [? ? As Ac]; subst.
  assert (ascii_only ["("%char]) as D1 by ascii_lit. assert (ascii_only [")"%char]) as D2 by ascii_lit.
  cbn [tree_pieces]. rewrite Forall_forall in As, Ac, IH. split.
  - apply Forall_app. split; [constructor; [apply ascii_cuttable; auto|constructor]|].
    apply Forall_app. split.
    + apply Forall_flat_map, Forall_forall. intros m I. apply node_P. auto.
    + apply Forall_app. split; [|constructor; [apply ascii_cuttable; auto|constructor]].
      apply Forall_flat_map, Forall_forall. intros c I. apply IH; auto.
  - rewrite !Forall_app, !Forall_flat_map. split.
    + intros (_ & H1 & H2 & _) v (m & k & vs & N & I & Iv). rewrite Forall_forall in H1, H2.
      inversion N as [? ? ? Im|? ? c ? Ic Nc]; subst.
      * specialize (H1 _ Im). apply (proj1 (proj2 (node_P m (As _ Im)))) with (k := k) (vs := vs); auto.
      * specialize (H2 _ Ic). apply (proj1 (proj2 (IH c Ic (Ac c Ic))) H2). exists m, k, vs. auto.
    + intros H. split; [constructor; [apply ascii_P; auto|constructor]|]. split; [|split; [|constructor; [apply ascii_P; auto|constructor]]].
      * apply Forall_forall. intros m I. apply (proj2 (proj2 (node_P m (As _ I)))). intros k vs v I1 I2. apply H. exists m, k, vs.
        split; [apply nt_here; auto|auto].
      * apply Forall_forall. intros c I. apply (proj2 (proj2 (IH c I (Ac c I)))). intros v (m & k & vs & N & I1 & I2). apply H. exists m, k, vs.
        split; [eapply nt_below; eauto|auto].
Qed.

Lemma text_P t out : ascii_tree t -> layout (tree_pieces t ++ [[char_lf]]) out ->
  (P out <-> forall v, cvalue t v -> P v).
Proof.
  intros A L. destruct (tree_P t A) as [C E].
  assert (ascii_only [char_lf]) as D by ascii_lit.
  rewrite <- (app_nil_r out), (P_layout _ _ [] L).
  - rewrite Forall_app, E. pose proof (ascii_P _ D) as HD. split; [tauto|]. intros H. split; [|auto]. split; auto.
  - apply Forall_app. split; auto. constructor; [apply ascii_cuttable; auto|constructor].
Qed.
End Resp.

Lemma proper_nil e : proper e [].
Proof. exists []. destruct e; constructor. Qed.

Lemma proper_recoded e s : proper e s <-> exists s', recoded e e s s'.
Proof.
  split; [intros (u & S); exists s, u; auto|intros (s' & u & S & _); exists u; auto].
Qed.

Lemma recodable_split e e' a c b : ord c < 128 ->
  ((exists s', recoded e e' (a ++ c :: b) s') <-> (exists a', recoded e e' a a') /\ (exists b', recoded e e' b b')).
Proof.
  intros L. split.
  - intros (s' & R). apply recoded_split in R; auto. destruct R as (a' & b' & _ & Ra & Rb). eauto.
  - intros ((a' & Ra) & (b' & Rb)). exists (a' ++ c :: b'). apply recoded_split; auto. eauto.
Qed.

Lemma text_recodable e e' t out : ascii_tree t -> layout (tree_pieces t ++ [[char_lf]]) out ->
  ((exists s', recoded e e' out s') <-> forall v, cvalue t v -> exists v', recoded e e' v v').
Proof.
  intros A L. apply (text_P (fun s => exists s', recoded e e' s s')); auto.
  - exists []. apply recoded_nil. reflexivity.
  - intros. apply recodable_split. auto.
Qed.

Lemma text_proper e t out : ascii_tree t -> layout (tree_pieces t ++ [[char_lf]]) out ->
  (proper e out <-> forall v, cvalue t v -> proper e v).
Proof.
  intros A L. rewrite proper_recoded, (text_recodable e e t out A L).
  split; intros H v I; apply proper_recoded; auto.
Qed.

(** * Replacing the values of a tree *)

Definition vmap (f : bytes -> bytes) (m : pmap) : pmap := map (fun kv => (fst kv, map f (snd kv))) m.
Fixpoint tmap (f : bytes -> bytes) (t : ctree) : ctree :=
  match t with CT sq ch => CT (map (vmap f) sq) (map (tmap f) ch) end.
Fixpoint nmap (f : bytes -> bytes) (t : ntree) : ntree :=
  match t with NT m ks => NT (vmap f m) (map (nmap f) ks) end.

Lemma sort_vmap f m : sort_props (vmap f m) = vmap f (sort_props m).
Proof.
  induction m as [|[k vs] m IH]; auto. cbn [vmap map sort_props]. unfold vmap in IH. rewrite IH.
  fold (vmap f (sort_props m)). generalize (sort_props m). clear. intros l. induction l as [|[k' vs'] l IH]; auto.
  cbn [vmap map insert_prop fst snd]. destruct (key_ltb k' k); auto. cbn [map fst snd]. f_equal. exact IH.
Qed.

Section Map.
Context (e e' : encoding) (f : bytes -> bytes).

Lemma prop_recoded k vs : ascii_only k -> (forall v, In v vs -> recoded e e' v (f v)) ->
  recoded e e' (prop_piece (k, vs)) (prop_piece (k, map f vs)).
Proof.
  intros A H. unfold prop_piece. cbn [fst snd]. apply recoded_cat_ascii; [apply recoded_ascii; auto|].
  induction vs as [|v vs IH]; [apply recoded_nil; auto|]. cbn [map flat_map].
  change (char_lb :: v ++ [char_rb]) with ([char_lb] ++ v ++ [char_rb]).
  change (char_lb :: f v ++ [char_rb]) with ([char_lb] ++ f v ++ [char_rb]).
  apply recoded_cat_ascii; [|apply IH; intros; apply H; right; auto].
  apply recoded_cat_ascii; [apply recoded_ascii; [ascii_lit|auto]|].
  apply recoded_cat_ascii; [apply H; left; auto|apply recoded_ascii; [ascii_lit|auto]].
Qed.

Lemma node_recoded m : ascii_idents m -> (forall k vs v, In (k, vs) m -> In v vs -> recoded e e' v (f v)) ->
  Forall2 (recoded e e') (node_pieces m) (node_pieces (vmap f m)).
Proof.
  intros A H. unfold node_pieces. constructor; [apply recoded_ascii; [ascii_lit|auto]|].
  rewrite sort_vmap. unfold vmap. rewrite map_map.
  assert (forall kv, In kv (sort_props m) -> In kv m) as SI by (intros kv I; apply sort_props_In; auto).
  induction (sort_props m) as [|[k vs] l IH]; cbn [map]; constructor.
  - cbn [fst snd]. assert (In (k, vs) m) as I by (apply SI; left; auto). apply prop_recoded.
    + unfold ascii_idents in A. rewrite Forall_forall in A. apply (A _ I).
    + intros v Iv. eapply H; eauto.
  - apply IH. intros kv I. apply SI. right. auto.
Qed.

Lemma flat_map_recoded {A} (g h : A -> list bytes) l :
  (forall x, In x l -> Forall2 (recoded e e') (g x) (h x)) -> Forall2 (recoded e e') (flat_map g l) (flat_map h l).
Proof.
  induction l as [|x l IH]; intros H; cbn [flat_map]; [constructor|].
  apply Forall2_app; [apply H; left; auto|apply IH; intros; apply H; right; auto].
Qed.

Lemma flat_map_map' {A B C} (g : B -> list C) (h : A -> B) l : flat_map g (map h l) = flat_map (fun x => g (h x)) l.
Proof. induction l; cbn [map flat_map]; congruence. Qed.

Lemma tree_recoded t : ascii_tree t -> (forall v, cvalue t v -> recoded e e' v (f v)) ->
  Forall2 (recoded e e') (tree_pieces t) (tree_pieces (tmap f t)).
Proof.
  induction t as [sq ch IH] using ctree_ind'. intros A H. inversion A as [? ? As Ac]; subst.
  cbn [tmap tree_pieces]. rewrite !flat_map_map'. rewrite Forall_forall in As, Ac, IH.
  apply Forall2_app; [constructor; [apply recoded_ascii; [ascii_lit|auto]|constructor]|].
  apply Forall2_app.
  { apply flat_map_recoded. intros m I. apply node_recoded; auto. intros k vs v I1 I2. apply H. exists m, k, vs.
    split; [apply nt_here; auto|auto]. }
  apply Forall2_app; [|constructor; [apply recoded_ascii; [ascii_lit|auto]|constructor]].
  apply flat_map_recoded. intros c I. apply IH; auto. intros v (m & k & vs & N & I1 & I2). apply H. exists m, k, vs.
  split; [eapply nt_below; eauto|auto].
Qed.

Lemma layout_recoded ps out ps' : layout ps out -> Forall2 (recoded e e') ps ps' ->
  exists out', layout ps' out' /\ recoded e e' out out'.
Proof.
  intros L. revert ps'. induction L as [|w p ps out W L IH]; intros ps' F.
  - inversion F; subst. exists []. split; [constructor|apply recoded_nil; auto].
  - inversion F as [|? p' ? ps2 R F2]; subst. destruct (IH _ F2) as (out' & L' & R').
    exists (w ++ p' ++ out'). split; [constructor; auto|].
    apply recoded_cat_ascii; [apply recoded_ascii; [apply ws_ascii; auto|auto]|]. apply recoded_cat_ascii; auto.
Qed.

Lemma vmap_good m : good_node m -> (forall k vs v, In (k, vs) m -> In v vs -> recoded e e' v (f v)) -> good_node (vmap f m).
Proof.
  intros [ND F] H. split.
  - unfold vmap. rewrite map_map. exact ND.
  - unfold vmap. apply Forall_map. rewrite Forall_forall in *. intros [k vs] I. specialize (F _ I). cbn [fst snd] in *.
    destruct F as (G & N & V). split; auto. split; [destruct vs; [congruence|discriminate]|].
    apply Forall_map. rewrite Forall_forall in *. intros v Iv. exact (recoded_valid e e' v (f v) (H k vs v I Iv) (V v Iv)).
Qed.

Lemma tmap_good t : good_tree t -> (forall v, cvalue t v -> recoded e e' v (f v)) -> good_tree (tmap f t).
Proof.
  induction t as [sq ch IH] using ctree_ind'. intros G H. inversion G as [? ? N Gs Gc]; subst. cbn [tmap].
  rewrite Forall_forall in Gs, Gc, IH. constructor.
  - destruct sq; [congruence|discriminate].
  - apply Forall_map, Forall_forall. intros m I. apply vmap_good; auto. intros k vs v I1 I2. apply H. exists m, k, vs.
    split; [apply nt_here; auto|auto].
  - apply Forall_map, Forall_forall. intros c I. apply IH; auto. intros v (m & k & vs & Nn & I1 & I2). apply H. exists m, k, vs.
    split; [eapply nt_below; eauto|auto].
Qed.
End Map.

Lemma good_ascii t : good_tree t -> ascii_tree t.
Proof.
  induction t as [sq ch IH] using ctree_ind'. intros G. inversion G as [? ? N Gs Gc]; subst.
  rewrite Forall_forall in Gs, Gc, IH. constructor; apply Forall_forall.
  - intros m I. apply Gs in I. destruct I as [_ F]. unfold ascii_idents. eapply Forall_impl; [|exact F].
    intros [k vs] ((_ & _ & U) & _). apply upper_ascii, U.
  - intros c I. auto.
Qed.

Lemma parsed_ascii t : parsed_tree t -> ascii_tree t.
Proof.
  induction t as [sq ch IH] using ctree_ind'. intros G. inversion G as [? ? N Gs Gc]; subst.
  rewrite Forall_forall in Gs, Gc, IH. constructor; apply Forall_forall.
  - intros m I. apply Gs in I. destruct I as [_ F]. unfold ascii_idents. eapply Forall_impl; [|exact F].
    intros [k vs] ((_ & U) & _). apply upper_ascii, U.
  - intros c I. auto.
Qed.

Lemma denotes_nmap f ct : forall nt, denotes ct nt -> denotes (tmap f ct) (nmap f nt).
Proof.
  induction ct as [sq ch IH] using ctree_ind'. intros nt D.
  revert nt D. induction sq as [|m sq IHs]; intros nt D; [inversion D|].
  inversion D as [? ? ts F|? ? ? ? t D']; subst.
  - cbn [tmap map nmap]. constructor. clear - IH F. revert IH. induction F as [|c t ch ts D F IHF]; intros IH; constructor.
    + inversion IH; auto.
    + apply IHF. inversion IH; auto.
  - cbn [tmap map nmap]. constructor. apply (IHs _ D').
Qed.

Lemma denotes_values ct : forall nt v, denotes ct nt -> (cvalue ct v <-> value_in nt v).
Proof.
  induction ct as [sq ch IH] using ctree_ind'. intros nt v D.
  revert nt D. induction sq as [|m sq IHs]; intros nt D; [inversion D|].
  inversion D as [? ? ts F|? ? ? ? t D']; subst.
  - split.
    + intros (m0 & k & vs & N & I & Iv). inversion N as [? ? ? Im|? ? c ? Ic Nc]; subst.
      * destruct Im as [<-|[]]. eapply vi_here; eauto.
      * clear - IH F Ic Nc I Iv. induction F as [|c0 t ch ts D F IHF]; [destruct Ic|]. inversion IH as [|? ? H1 H2]; subst.
        destruct Ic as [->|Ic].
        -- apply vi_below with (t := t); [left; auto|]. apply (H1 t v D). exists m0, k, vs. auto.
        -- specialize (IHF H2 Ic). inversion IHF; subst; [eapply vi_here; eauto|eapply vi_below; [right; eauto|auto]].
    + intros V. inversion V as [? ? k vs ? I Iv|? ? t ? It Vt]; subst.
      * exists m, k, vs. split; [apply nt_here; left; auto|auto].
      * clear - IH F It Vt. induction F as [|c0 t0 ch ts D F IHF]; [destruct It|]. inversion IH as [|? ? H1 H2]; subst.
        destruct It as [->|It].
        -- apply (H1 t v D) in Vt. destruct Vt as (m0 & k & vs & N & I & Iv). exists m0, k, vs. split; auto.
           eapply nt_below; [left; eauto|auto].
        -- destruct (IHF H2 It) as (m0 & k & vs & N & I & Iv). exists m0, k, vs. split; auto.
           inversion N; subst; [apply nt_here; auto|eapply nt_below; [right; eauto|auto]].
  - specialize (IHs t D'). split.
    + intros (m0 & k & vs & N & I & Iv). inversion N as [? ? ? Im|? ? c ? Ic Nc]; subst.
      * destruct Im as [<-|Im]; [eapply vi_here; eauto|]. apply vi_below with (t := t); [left; auto|]. apply IHs. exists m0, k, vs.
        split; [apply nt_here; auto|auto].
      * apply vi_below with (t := t); [left; auto|]. apply IHs. exists m0, k, vs. split; [eapply nt_below; eauto|auto].
    + intros V. inversion V as [? ? k vs ? I Iv|? ? t0 ? It Vt]; subst.
      * exists m, k, vs. split; [apply nt_here; left; auto|auto].
      * destruct It as [<-|[]]. apply IHs in Vt. destruct Vt as (m0 & k & vs & N & I & Iv). exists m0, k, vs. split; auto.
        inversion N; subst; [apply nt_here; right; auto|eapply nt_below; eauto].
Qed.

Lemma lookup_vmap f k m : lookup k (vmap f m) = option_map (map f) (lookup k m).
Proof. induction m as [|[k' vs] m IH]; auto. cbn [vmap map lookup fst snd]. destruct (bytes_eqb k k'); auto. Qed.

Lemma lookup_in k m vs : lookup k m = Some vs -> In (k, vs) m.
Proof.
  induction m as [|[k' vs'] m IH]; cbn [lookup]; [discriminate|]. destruct (bytes_eqb_spec k k') as [->|].
  - intros E. injection E as ->. left. auto.
  - right. auto.
Qed.

Lemma nmap_recoded e e' f d : (forall v, value_in d v -> recoded e e' v (f v)) ->
  forall d', same_data_tree (nmap f d) d' -> recoded_tree e e' d d'.
Proof.
  induction d as [m ks IH] using ntree_ind'. intros H d' S. cbn [nmap] in S. inversion S as [? m' ? ks' SN F]; subst. constructor.
  - intros k. rewrite <- (SN k), lookup_vmap. destruct (lookup k m) as [vs|] eqn:L; cbn [option_map]; [|auto].
    apply lookup_in in L. assert (forall v, In v vs -> recoded e e' v (f v)) as Hv by (intros; apply H; eapply vi_here; eauto).
    clear - Hv. induction vs as [|v vs IHv]; constructor; [apply Hv; left; auto|apply IHv; intros; apply Hv; right; auto].
  - assert (forall t v, In t ks -> value_in t v -> recoded e e' v (f v)) as Hk by (intros; apply H; eapply vi_below; eauto).
    clear - IH F Hk. revert ks' F. induction IH as [|t ks Ht IHk IHks]; intros ks' F; cbn [map] in F; inversion F; subst; constructor.
    + apply Ht; auto. intros v V. apply (Hk t); [left; auto|auto].
    + apply IHks; auto. intros t' v I V. apply (Hk t'); [right; auto|auto].
Qed.
