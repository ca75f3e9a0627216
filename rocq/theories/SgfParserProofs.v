(** Proofs about the SGF grammar model: the parser (C10, C11). *)
From Verif Require Import Base Bytes SgfGrammarModel SgfGrammarSpec SgfGrammarProofs.

(** * Fuel *)

Lemma span_values_length ts : (List.length (snd (span_values ts)) <= List.length ts)%nat.
Proof.
  induction ts as [|[i|v|d] ts IH]; simpl; auto.
  destruct (span_values ts) as [a b]; simpl in *. lia.
Qed.

Lemma parse_fuel : forall n ts st f f',
  (List.length ts <= n)%nat -> (List.length ts <= f)%nat -> (List.length ts <= f')%nat ->
  parse_loop f ts st = parse_loop f' ts st.
Proof.
  induction n as [|n IH]; intros ts st f f' Ln Lf Lf'.
  - destruct ts; simpl in *; [|lia]. destruct f, f'; reflexivity.
  - destruct ts as [|t rest]; [destruct f, f'; reflexivity|].
    simpl in Ln, Lf, Lf'. destruct f as [|f]; [lia|]. destruct f' as [|f']; [lia|].
    assert (forall st, parse_loop f rest st = parse_loop f' rest st) as R by (intros; apply IH; lia).
    cbn [parse_loop]. destruct t as [i|v|c].
    + pose proof (span_values_length rest) as L.
      destruct (span_values rest) as [vals rest']. simpl in L.
      destruct rest'; auto. destruct vals; auto. destruct (p_props st); auto. apply IH; lia.
    + reflexivity.
    + destruct (ceqb c ";"%char).
      * destruct (p_seq st); auto.
      * match goal with |- bind ?m _ = _ => destruct m as [gt|]; auto end. cbn [bind].
        destruct (ceqb c "("%char); auto.
        destruct (p_stack st) as [|[g|] s']; auto. destruct gt; auto.
Qed.

Definition parse (ts : list token) (st : pstate) := parse_loop (List.length ts) ts st.

Lemma parse_step_node rest stk g l props :
  parse (TokD ";"%char :: rest) (mkP stk g (Some l) props) =
  parse rest (mkP stk g (Some (full_sequence l props)) (Some [])).
Proof. reflexivity. Qed.

Lemma parse_step_open_child rest stk g l props :
  full_sequence l props <> [] ->
  parse (TokD "("%char :: rest) (mkP stk (Some g) (Some l) props) =
  parse rest (mkP (Some (mkG (full_sequence l props) (gt_children g)) :: stk)
                  (Some (mkG [] [])) (Some []) None).
Proof.
  intros H. unfold parse. cbn [List.length parse_loop p_seq p_props p_tree p_stack].
  change (ceqb "(" ";") with false. change (ceqb "(" "(") with true. cbv iota.
  destruct (full_sequence l props); [congruence|]. reflexivity.
Qed.

Lemma parse_step_open_next rest stk g props :
  parse (TokD "("%char :: rest) (mkP stk g None props) =
  parse rest (mkP (g :: stk) (Some (mkG [] [])) (Some []) None).
Proof. reflexivity. Qed.

Definition ct_of (g : gtree) : ctree := CT (gt_sequence g) (gt_children g).

(** Closing a tree whose own sequence is finished or still open. *)
Definition closed (g : gtree) (sq : option (list pmap)) (props : option pmap) : gtree :=
  match sq with
  | None => g
  | Some l => mkG (full_sequence l props) (gt_children g)
  end.

Lemma parse_step_close rest p stk g sq props :
  (forall l, sq = Some l -> full_sequence l props <> []) ->
  parse (TokD ")"%char :: rest) (mkP (Some p :: stk) (Some g) sq props) =
  parse rest (mkP stk (Some (mkG (gt_sequence p) (gt_children p ++ [ct_of (closed g sq props)])))
                  None None).
Proof.
  intros H. unfold parse. cbn [List.length parse_loop p_seq p_props p_tree p_stack].
  change (ceqb ")" ";") with false. change (ceqb ")" "(") with false. cbv iota.
  destruct sq as [l|]; [|reflexivity].
  specialize (H l eq_refl). unfold closed. destruct (full_sequence l props); [congruence|].
  reflexivity.
Qed.

Lemma parse_step_close_top rest stk g sq props :
  (forall l, sq = Some l -> full_sequence l props <> []) ->
  parse (TokD ")"%char :: rest) (mkP (None :: stk) (Some g) sq props) =
  Ok (ct_of (closed g sq props), rest).
Proof.
  intros H. unfold parse. cbn [List.length parse_loop p_seq p_props p_tree p_stack].
  change (ceqb ")" ";") with false. change (ceqb ")" "(") with false. cbv iota.
  destruct sq as [l|]; [|reflexivity].
  specialize (H l eq_refl). unfold closed. destruct (full_sequence l props); [congruence|].
  reflexivity.
Qed.

Lemma span_values_map vs rest :
  match rest with TokV _ :: _ => False | _ => True end ->
  span_values (map TokV vs ++ rest) = (vs, rest).
Proof.
  intros H. induction vs as [|v vs IH]; simpl.
  - destruct rest as [|[]]; try reflexivity. destruct H.
  - rewrite IH. reflexivity.
Qed.

Lemma parse_step_prop kv rest stk g sq m :
  snd kv <> [] -> rest <> [] -> match rest with TokV _ :: _ => False | _ => True end ->
  parse (prop_tokens kv ++ rest) (mkP stk g sq (Some m)) =
  parse rest (mkP stk g sq (Some (add_values (fst kv) (snd kv) m))).
Proof.
  intros Hv Hr Hn. destruct kv as [k vs]. cbn [fst snd] in *. unfold parse, prop_tokens.
  cbn [fst snd app List.length parse_loop p_seq p_props p_tree p_stack].
  rewrite span_values_map by exact Hn.
  destruct rest as [|t rest]; [congruence|]. destruct vs as [|v vs]; [congruence|].
  apply (parse_fuel (List.length (t :: rest))); auto.
  rewrite app_length. lia.
Qed.

(** Adding distinct keys appends. *)
Lemma add_values_new k v m : ~ In k (map fst m) -> add_values k v m = m ++ [(k, v)].
Proof.
  induction m as [|[k' v'] m IH]; simpl; intros H; auto.
  destruct (bytes_eqb_spec k k') as [->|N]; [tauto|]. rewrite IH by tauto. reflexivity.
Qed.

Lemma parse_props ps : forall rest stk g sq m,
  NoDup (map fst (m ++ ps)) -> Forall (fun kv => snd kv <> []) ps ->
  rest <> [] -> match rest with TokV _ :: _ => False | _ => True end ->
  parse (flat_map prop_tokens ps ++ rest) (mkP stk g sq (Some m)) =
  parse rest (mkP stk g sq (Some (m ++ ps))).
Proof.
  induction ps as [|kv ps IH]; intros rest stk g sq m ND F Hr Hn; cbn [flat_map].
  - rewrite app_nil_r. reflexivity.
  - rewrite <- app_assoc. rewrite parse_step_prop.
    + rewrite add_values_new.
      * rewrite IH; auto.
        -- destruct kv. rewrite <- app_assoc. reflexivity.
        -- destruct kv. rewrite <- app_assoc. exact ND.
        -- inv F. auto.
      * rewrite map_app in ND. simpl in ND. apply NoDup_remove_2 in ND.
        intro C. apply ND. apply in_app_iff. auto.
    + inv F. auto.
    + destruct ps as [|kv2 ps]; simpl; [exact Hr|discriminate].
    + destruct ps as [|kv2 ps]; simpl; [exact Hn|exact I].
Qed.

(** What follows a node or a tree. *)
Definition follows (ts : list token) : Prop :=
  match ts with TokD _ :: _ => True | _ => False end.

Lemma follows_ok ts : follows ts ->
  ts <> [] /\ match ts with TokV _ :: _ => False | _ => True end.
Proof. destruct ts as [|[]]; simpl; try tauto. intros _. split; auto. discriminate. Qed.

Lemma parse_node m rest stk g l props : good_node m -> follows rest ->
  parse (node_tokens m ++ rest) (mkP stk g (Some l) props) =
  parse rest (mkP stk g (Some (full_sequence l props)) (Some (sort_props m))).
Proof.
  intros G F. unfold node_tokens. cbn [app]. rewrite parse_step_node.
  apply follows_ok in F. destruct F as [F1 F2].
  apply good_node_sorted in G. destruct G as [ND FA].
  rewrite parse_props; auto.
  eapply Forall_impl; [|exact FA]. cbv beta. tauto.
Qed.

Lemma follows_nodes sq rest : follows rest -> follows (flat_map node_tokens sq ++ rest).
Proof. destruct sq; simpl; auto. Qed.

Lemma follows_trees ch rest : follows rest -> follows (flat_map tree_tokens ch ++ rest).
Proof. destruct ch as [|[sq ch'] ch]; simpl; auto. Qed.

Lemma parse_nodes sq : forall rest stk g l props, Forall good_node sq -> sq <> [] -> follows rest ->
  exists l' props',
    parse (flat_map node_tokens sq ++ rest) (mkP stk g (Some l) props) =
    parse rest (mkP stk g (Some l') props') /\
    full_sequence l' props' = full_sequence l props ++ map sort_props sq.
Proof.
  induction sq as [|m sq IH]; intros rest stk g l props F N Fo; [congruence|].
  inv F. cbn [flat_map]. rewrite <- app_assoc.
  rewrite parse_node by (auto using follows_nodes).
  destruct sq as [|m2 sq].
  - exists (full_sequence l props), (Some (sort_props m)). split; reflexivity.
  - destruct (IH rest stk g (full_sequence l props) (Some (sort_props m))) as (l' & p' & E1 & E2);
      auto; [discriminate|].
    exists l', p'. split; [exact E1|]. rewrite E2. cbn [full_sequence map].
    rewrite <- app_assoc. reflexivity.
Qed.

(** The tree as the parser rebuilds it: property maps in serialisation order. *)
Fixpoint norm (t : ctree) : ctree :=
  match t with CT sq ch => CT (map sort_props sq) (map norm ch) end.

(** Inside an enclosing tree, the parser appends the normalised tree to its children. *)
Definition child_result (stk : list (option gtree)) (g : gtree) (sq : option (list pmap))
  (props : option pmap) (new : list ctree) : pstate :=
  mkP stk (Some (mkG (gt_sequence (closed g sq props)) (gt_children g ++ new))) None None.

Definition tree_parses (t : ctree) : Prop :=
  forall rest stk g sq props, good_tree t ->
    (forall l, sq = Some l -> full_sequence l props <> []) ->
    parse (tree_tokens t ++ rest) (mkP stk (Some g) sq props) =
    parse rest (child_result stk g sq props [norm t]).

Lemma parse_trees ch : Forall tree_parses ch ->
  forall rest stk g sq props, Forall good_tree ch -> ch <> [] ->
    (forall l, sq = Some l -> full_sequence l props <> []) ->
    parse (flat_map tree_tokens ch ++ rest) (mkP stk (Some g) sq props) =
    parse rest (child_result stk g sq props (map norm ch)).
Proof.
  induction 1 as [|t ch Ht Hch IH]; intros rest stk g sq props G N Hs; [congruence|].
  inv G. cbn [flat_map map]. rewrite <- app_assoc. rewrite Ht by auto.
  destruct ch as [|t2 ch]; [reflexivity|].
  unfold child_result at 1. rewrite IH; auto; [|discriminate|intros; discriminate].
  unfold child_result. cbn [closed gt_sequence gt_children]. rewrite <- app_assoc. reflexivity.
Qed.

Lemma parse_open rest stk g sq props :
  (forall l, sq = Some l -> full_sequence l props <> []) ->
  parse (TokD "("%char :: rest) (mkP stk (Some g) sq props) =
  parse rest (mkP (Some (closed g sq props) :: stk) (Some (mkG [] [])) (Some []) None).
Proof.
  intros H. destruct sq as [l|].
  - rewrite parse_step_open_child by (apply H; auto). reflexivity.
  - reflexivity.
Qed.

Lemma parse_body sq ch rest stk0 : Forall tree_parses ch ->
  Forall good_node sq -> sq <> [] -> Forall good_tree ch ->
  exists g sq' props', 
    parse (flat_map node_tokens sq ++ flat_map tree_tokens ch ++ TokD ")"%char :: rest)
          (mkP stk0 (Some (mkG [] [])) (Some []) None) =
    parse (TokD ")"%char :: rest) (mkP stk0 (Some g) sq' props') /\
    (forall l, sq' = Some l -> full_sequence l props' <> []) /\
    ct_of (closed g sq' props') = CT (map sort_props sq) (map norm ch).
Proof.
  intros T Gs N Gc.
  destruct (parse_nodes sq (flat_map tree_tokens ch ++ TokD ")"%char :: rest)
              stk0 (Some (mkG [] [])) [] None) as (l' & p' & E1 & E2); auto.
  { apply follows_trees. exact I. }
  rewrite E1. cbn [full_sequence app] in E2.
  assert (full_sequence l' p' <> []) as NE.
  { rewrite E2. destruct sq; [congruence|discriminate]. }
  destruct ch as [|c ch].
  - exists (mkG [] []), (Some l'), p'. split; [reflexivity|]. split.
    + intros l E. inv E. exact NE.
    + unfold ct_of. cbn [closed gt_sequence gt_children map]. rewrite E2. reflexivity.
  - rewrite parse_trees; auto; [|discriminate|intros l E; inv E; exact NE].
    unfold child_result. eexists. eexists. eexists. split; [reflexivity|]. split.
    + intros; discriminate.
    + unfold ct_of. cbn [closed gt_sequence gt_children app]. rewrite E2. reflexivity.
Qed.

Lemma all_trees_parse t : tree_parses t.
Proof.
  induction t as [sq ch IH] using ctree_ind'. intros rest stk g sq0 props G Hs.
  inv G. cbn [tree_tokens]. rewrite <- !app_assoc. cbn [app].
  rewrite parse_open by exact Hs. 
  destruct (parse_body sq ch rest (Some (closed g sq0 props) :: stk)) as (g' & sq' & p' & E & H & C); auto.
  rewrite E. rewrite parse_step_close by exact H. rewrite C. unfold child_result.
  cbn [norm]. destruct sq0; reflexivity.
Qed.

Lemma parse_top t rest : good_tree t ->
  parse (tree_tokens t ++ rest) (mkP [] None None None) = Ok (norm t, rest).
Proof.
  destruct t as [sq ch]. intros G. inv G. cbn [tree_tokens]. rewrite <- !app_assoc. cbn [app].
  rewrite parse_step_open_next.
  destruct (parse_body sq ch rest [None]) as (g' & sq' & p' & E & H & C); auto.
  { rewrite Forall_forall. intros; apply all_trees_parse. }
  rewrite E. rewrite parse_step_close_top by exact H. rewrite C. reflexivity.
Qed.

Lemma norm_same t : good_tree t -> same_tree t (norm t).
Proof.
  induction t as [sq ch IH] using ctree_ind'. intros G. inv G. cbn [norm]. constructor.
  - clear - H2. induction H2 as [|m sq G F IHs]; constructor; auto. apply sort_props_same, G.
  - clear - IH H3. induction IH as [|c ch Hc Hch IHc]; [constructor|]. inv H3. constructor; auto.
Qed.

Lemma norm_good t : good_tree t -> good_tree (norm t).
Proof.
  induction t as [sq ch IH] using ctree_ind'. intros G. inv G. cbn [norm]. constructor.
  - destruct sq; [congruence|discriminate].
  - clear - H2. induction H2; constructor; auto. apply good_node_sorted; auto.
  - clear - IH H3. induction IH as [|c ch Hc Hch IHc]; [constructor|]. inv H3. constructor; auto.
Qed.

(** * C10 *)

Lemma parse_at_tree t out junk rest : good_tree t -> no_paren junk ->
  layout (tree_pieces t) out ->
  parse_sgf_game_at (junk ++ out ++ rest) = Ok (Some (norm t, rest)).
Proof.
  intros G J L. unfold parse_sgf_game_at. rewrite (tokenise_tree t) by auto. cbn [bind].
  pose proof (parse_top t [] G) as P. rewrite app_nil_r in P. unfold parse in P.
  destruct (tree_tokens t) as [|x ts] eqn:E; [destruct t; discriminate|].
  rewrite P. reflexivity.
Qed.

Lemma serialise_shape t wrap : good_tree t ->
  exists out w, serialise_game_tree t wrap = Ok (out ++ w) /\
    layout (tree_pieces t) out /\ ws w.
Proof.
  intros G. destruct (serialise_layout t wrap) as (o & E & L).
  apply layout_split in L. destruct L as (a & b & -> & La & Lb).
  apply layout_one in Lb. destruct Lb as (w & W & ->).
  exists a, (w ++ [char_lf]). repeat split; auto.
  apply Forall_app. split; [exact W|]. constructor; [reflexivity|constructor].
Qed.

Lemma C10_game_proof t wrap : good_tree t ->
  exists out t', serialise_game_tree t wrap = Ok out /\
    parse_sgf_game out = Ok t' /\ same_tree t t'.
Proof.
  intros G. destruct (serialise_shape t wrap G) as (o & w & E & L & W).
  exists (o ++ w), (norm t). split; [exact E|]. split; [|apply norm_same; auto].
  unfold parse_sgf_game. pose proof (parse_at_tree t o [] w G) as P. cbn [app] in P.
  rewrite P; [reflexivity|constructor|exact L].
Qed.

Lemma no_paren_no_start s : no_paren s -> find_start s = None.
Proof.
  intros H. rewrite <- (app_nil_r s). rewrite find_start_skip by exact H. reflexivity.
Qed.

Lemma collection_parse wrap ts s w : collection_file wrap ts s -> ws w -> Forall good_tree ts ->
  forall acc f, (acc <> [] \/ ts <> []) -> (List.length s + List.length w <= f)%nat ->
  collection_loop f (w ++ s) acc = Ok (acc ++ map norm ts).
Proof.
  intros C. revert w. induction C as [junk J|junk t out ts rest J E C IH]; intros w W G acc f N Lf.
  - assert (parse_sgf_game_at (w ++ junk) = Ok None) as P.
    { unfold parse_sgf_game_at, tokenise. rewrite find_start_skip by (apply ws_no_paren; auto).
      rewrite no_paren_no_start by exact J. reflexivity. }
    destruct N as [N|N]; [|congruence]. destruct acc as [|a acc]; [congruence|].
    destruct f; cbn [collection_loop]; rewrite P, app_nil_r; reflexivity.
  - inv G. destruct (serialise_shape t wrap H1) as (o & w2 & E2 & L & W2).
    rewrite E in E2. inv E2.
    assert (parse_sgf_game_at (w ++ junk ++ (o ++ w2) ++ rest) = Ok (Some (norm t, w2 ++ rest))) as P.
    { rewrite (app_assoc w junk). rewrite <- (app_assoc o w2).
      apply parse_at_tree; auto. apply Forall_app. split; auto. apply ws_no_paren; auto. }
    assert (o <> []) as No.
    { clear - L. destruct t as [sq ch]. cbn [tree_pieces app] in L. inv L. destruct w; discriminate. }
    assert (0 < List.length o)%nat as Lo by (destruct o; [congruence|simpl; lia]).
    rewrite !app_length in Lf.
    destruct f as [|f]; [lia|]. cbn [collection_loop]. rewrite P.
    rewrite IH; auto.
    + rewrite <- app_assoc. reflexivity.
    + left. destruct acc; discriminate.
    + lia.
Qed.

Lemma Forall2_map_norm ts : Forall good_tree ts -> Forall2 same_tree ts (map norm ts).
Proof. induction 1; simpl; constructor; auto. apply norm_same; auto. Qed.

Lemma C10_collection_proof wrap ts s : Forall good_tree ts -> ts <> [] ->
  collection_file wrap ts s ->
  exists ts', parse_sgf_collection s = Ok ts' /\ Forall2 same_tree ts ts'.
Proof.
  intros G N C. exists (map norm ts). split; [|apply Forall2_map_norm; auto].
  unfold parse_sgf_collection.
  pose proof (collection_parse wrap ts s [] C (Forall_nil _) G [] (List.length s)) as P.
  apply P; auto. simpl. lia.
Qed.
