(** Proofs about the game records (C57): documents, what is shown of them, saving and loading. *)
From Verif Require Import Base Bytes PyStr Dict BoardModel BoardSpec CommonModel SgfGrammarModel SgfGrammarSpec
  SgfTreeConvModel SgfGrammarProofs SgfTreeConvProofs SgfPropsModel SgfPropsSpec SgfPropsProofs SgfValueSpec SgfValueProofs SgfTypeErrorProofs
  SgfTreeModel SgfTreeSpec SgfTreeProofs SgfNodeProofs SgfGameProofs SgfTreeMainProofs SgfSaveProofs SgfMovesModel SgfMovesSpec SgfMovesProofs
  GameplayModel GameSgfModel GameSgfSpec SgfChainProofs GameSgfProofs.

Fixpoint chain_data (m : pmap) (rest : list pmap) : ntree :=
  NT m (match rest with [] => [] | m' :: r => [chain_data m' r] end).

(** ** The nodes of a chain *)

(** Node [n] has the map [m]. *)
Definition node_map (w : world) (n : nat) (m : pmap) : Prop := exists x, node_at w n = Some x /\ t_props x = m.

Lemma data_chain w rest : forall n m, data_of w n (chain_data m rest) ->
  exists nodes, tree_of w n (line n nodes) /\ Forall2 (node_map w) (n :: nodes) (m :: rest).
Proof.
  induction rest as [|m' rest IH]; intros n m D; cbn [chain_data] in D.
  - remember (NT m []) as nt eqn:ENT. destruct D as [n x ts E F]. injection ENT as P T. subst ts. inversion F as [K|]. exists []. split.
    + econstructor; [exact E|]. rewrite <- K. constructor.
    + constructor; [exists x; auto|constructor].
  - remember (NT m [chain_data m' rest]) as nt eqn:ENT. destruct D as [n x ts E F]. injection ENT as P T. subst ts.
    inversion F as [|c ? ks ? D' F' K K2]. inversion F' as [K3|]. destruct (IH _ _ D') as (nodes & T' & N'). exists (c :: nodes). split.
    + cbn [line]. econstructor; [exact E|]. rewrite <- K, <- K3. constructor; [exact T'|constructor].
    + constructor; [exists x; auto|exact N'].
Qed.

Lemma chain_to_data w nodes : forall n m rest, tree_of w n (line n nodes) -> Forall2 (node_map w) (n :: nodes) (m :: rest) ->
  data_of w n (chain_data m rest).
Proof.
  induction nodes as [|c nodes IH]; intros n m rest T F; inversion F as [|? ? ? ? (x & E & P) F']; subst.
  - inversion F'; subst. inversion T as [? y ts E' K]; subst. assert (y = x) by congruence. subst y.
    inversion K as [K0|]. cbn [chain_data]. replace (t_props x) with (t_props x) by reflexivity. econstructor; [exact E|].
    rewrite <- K0. constructor.
  - inversion F' as [|? m' ? rest' A B]; subst. cbn [line] in T. inversion T as [? y ts E' K]; subst. assert (y = x) by congruence. subst y.
    inversion K as [|k ? ks ? T' K' K1 K2]; subst. inversion K' as [K3|]; subst.
    assert (k = c) as -> by (destruct nodes; inversion T'; reflexivity).
    cbn [chain_data]. econstructor; [exact E|]. rewrite <- K1. constructor; [|constructor]. apply IH; auto.
Qed.

Lemma same_chain rest : forall m d', same_data_tree (chain_data m rest) d' ->
  exists m' rest', d' = chain_data m' rest' /\ Forall2 same_node (m :: rest) (m' :: rest').
Proof.
  induction rest as [|a rest IH]; intros m d' S; cbn [chain_data] in S; inversion S as [? m' ? ks' SN F]; subst.
  - inversion F; subst. exists m', []. split; [reflexivity|]. constructor; [exact SN|constructor].
  - inversion F as [|? k ? ks'' S' F' K1 K2]; subst. inversion F'; subst. destruct (IH _ _ S') as (m2 & rest2 & -> & F2).
    exists m', (m2 :: rest2). split; [reflexivity|]. constructor; auto.
Qed.

Lemma chain_labels nodes : forall n, labels (line n nodes) = n :: nodes.
Proof.
  induction nodes as [|m nodes IH]; intros n; [reflexivity|]. cbn [line labels flat_map]. rewrite IH, app_nil_r. reflexivity.
Qed.

Lemma nodes_pres w i g nodes : reachable_world w -> game_at w i = Some g -> tree_of w (g_root g) (line (g_root g) nodes) ->
  Forall (fun n => exists x, node_at w n = Some x /\ pres_of w x = Some (g_pres g)) (g_root g :: nodes).
Proof.
  intros R G T. destruct (C19_tree_proof w i g R G) as (t & T' & _ & _ & _ & Ow & _).
  rewrite (tree_of_fun _ _ _ _ T' T) in Ow. rewrite chain_labels in Ow. rewrite Forall_forall. intros n I.
  destruct (Ow n I) as (x & E & O). exists x. split; [exact E|]. unfold pres_of. rewrite O, G. reflexivity.
Qed.

(** ** What a node shows *)

Lemma node_shows_map w c n x size : node_at w n = Some x -> pres_of w x = Some (new_presenter size UTF_8) ->
  (node_shows w c n <-> content_map size c (t_props x)).
Proof.
  intros E P.
  assert (forall k, get_prop w n k = match dget k (t_props x) with None => Err KeyError | Some vs => interpret (new_presenter size UTF_8) k vs end) as GP.
  { intros k. unfold get_prop, get_raw_list. rewrite E. destruct (dget k (t_props x)); cbn [bind]; [rewrite P|]; reflexivity. }
  assert (forall k, has_property w n k = dmem k (t_props x)) as HP by (intros k; unfold has_property; rewrite E; reflexivity).
  unfold node_shows, content_map. split; intros (A & B); split.
  - intros k N. specialize (A k N). destruct (dget k (ct_props c)) as [[t v]|].
    + destruct A as (v' & G & R). rewrite GP in G. destruct (dget k (t_props x)) as [raw|]; [|discriminate].
      exists raw. split; [reflexivity|]. exists v'. auto.
    + rewrite HP in A. unfold dmem in A. destruct (dget k (t_props x)); [discriminate|reflexivity].
  - destruct (ct_remark c) as [r|].
    + destruct B as (t & G & R). rewrite GP in G. destruct (dget (str "C") (t_props x)) as [raw|]; [|discriminate]. eauto.
    + rewrite HP in B. unfold dmem in B. destruct (dget (str "C") (t_props x)); [discriminate|reflexivity].
  - intros k N. specialize (A k N). destruct (dget k (ct_props c)) as [[t v]|].
    + destruct A as (raw & G & v' & I & R). exists v'. split; [|exact R]. rewrite GP, G. exact I.
    + rewrite HP. unfold dmem. rewrite A. reflexivity.
  - destruct (ct_remark c) as [r|].
    + destruct B as (raw & t & G & I & R). exists t. split; [|exact R]. rewrite GP, G. exact I.
    + rewrite HP. unfold dmem. rewrite B. reflexivity.
Qed.

Lemma content_same size c m m' : same_node m m' -> content_map size c m -> content_map size c m'.
Proof.
  intros S (A & B). assert (forall k, dget k m' = dget k m) as D.
  { intros k. rewrite <- !lookup_dget. symmetry. apply S. }
  split.
  - intros k N. specialize (A k N). rewrite D. exact A.
  - rewrite D. exact B.
Qed.

Lemma displays_maps d w i g nodes size : reachable_world w -> g_pres g = new_presenter size UTF_8 ->
  displays d w i g nodes ->
  exists m rest, Forall2 (node_map w) (g_root g :: nodes) (m :: rest) /\ Forall2 (content_map size) (fst d :: snd d) (m :: rest).
Proof.
  intros R P (G & T & S & F). pose proof (nodes_pres w i g nodes R G T) as N. rewrite P in N.
  inversion N as [|? ? (x & E & PR) N']; subst. exists (t_props x).
  assert (Forall2 (node_shows w) (snd d) nodes -> exists rest, Forall2 (node_map w) nodes rest /\ Forall2 (content_map size) (snd d) rest) as H.
  { generalize (snd d). clear -N'. induction nodes as [|n nodes IH]; intros l F; inversion F as [|c ? l' ? S F']; subst.
    - exists []. split; constructor.
    - inversion N' as [|? ? (x & E & PR) N]; subst. destruct (IH N l' F') as (rest & A & B).
      exists (t_props x :: rest). split; constructor; auto; [exists x; auto|]. eapply node_shows_map; eauto. }
  destruct (H F) as (rest & A & B). exists rest. split; constructor; auto; [exists x; auto|]. eapply node_shows_map; eauto.
Qed.

Lemma maps_display d w i g size m rest : reachable_world w -> game_at w i = Some g -> g_pres g = new_presenter size UTF_8 ->
  data_of w (g_root g) (chain_data m rest) -> Forall2 (content_map size) (fst d :: snd d) (m :: rest) ->
  exists nodes, displays d w i g nodes.
Proof.
  intros R G P D C. destruct (data_chain _ _ _ _ D) as (nodes & T & N). exists nodes.
  pose proof (nodes_pres w i g nodes R G T) as PR. rewrite P in PR.
  assert (forall n c m, (exists x, node_at w n = Some x /\ pres_of w x = Some (new_presenter size UTF_8)) -> node_map w n m ->
            content_map size c m -> node_shows w c n) as SH.
  { intros n c m' (x & E & Px) (y & E' & <-) Cm. assert (y = x) by congruence. subst y. eapply node_shows_map; eauto. }
  inversion PR as [|? ? P1 P2]; subst. inversion N as [|? ? ? ? N1 N2]; subst. inversion C as [|? ? ? ? C1 C2]; subst.
  split; [exact G|]. split; [exact T|]. split; [eapply SH; eauto|].
  clear -SH P2 N2 C2. revert nodes P2 N2. induction C2 as [|c m l rest C C2 IH]; intros nodes P2 N2; inversion N2; subst; constructor.
  - inversion P2; subst. eapply SH; eauto.
  - inversion P2; subst. apply IH; auto.
Qed.

(** ** Saving and loading a document *)

Lemma load_pres w0 out e w1 u : load_string w0 out e false = (w1, Ok u) ->
  exists g size, game_at w1 (List.length (w_games w0)) = Some g /\ g_pres g = new_presenter size e.
Proof.
  unfold load_string. destruct (parse_sgf_game out) as [t|]; [|discriminate]. unfold load_game.
  destruct (c_sequence t) as [|m sq]; [discriminate|].
  destruct (match dget (str "SZ") m with None => _ | Some _ => _ end) as [size|]; [|discriminate].
  destruct ((1 <=? size) && (size <=? 26)); cbn [negb]; [|discriminate].
  destruct (ntree_of t) as [props ks]. intros E. injection E as <- _.
  assert (forall t p w, w_games (load_below t p w) = w_games w) as LB.
  { intros t'. induction t' as [m' ks' IH] using ntree_ind'. intros p w. cbn [load_below].
    assert (forall c w, w_games (fold_left (fun w' k => load_below k c w') ks' w) = w_games w) as H.
    { intros c. induction IH as [|k ks' Hk _ IHks]; intros w2; cbn [fold_left]; [reflexivity|]. rewrite IHks. apply Hk. }
    rewrite H. unfold new_node, set_node. destruct (node_at _ p); reflexivity. }
  assert (forall c w, w_games (fold_left (fun w' k => load_below k c w') ks w) = w_games w) as H.
  { intros c. induction ks as [|k ks IH]; intros w2; cbn [fold_left]; [reflexivity|]. rewrite IH. apply LB. }
  eexists. exists size. split; [unfold game_at; rewrite H; unfold alloc_game; cbn [w_games]; rewrite nth_error_app2 by lia;
    rewrite Nat.sub_diag; reflexivity|reflexivity].
Qed.

Lemma saved_proof d w i g nodes wrap : reachable_world w -> displays d w i g nodes -> g_pres g = new_presenter (g_size g) UTF_8 ->
  Forall (fun c => dget [] (ct_props c) = None) (fst d :: snd d) ->
  exists out, serialise_game w g wrap = Ok out /\
    forall w0, reachable_world w0 -> exists w1 g' nodes',
      load_string w0 out UTF_8 false = (w1, Ok tt) /\ displays d w1 (List.length (w_games w0)) g' nodes' /\
      g_size g' = g_size g /\ undisturbed w0 w1 /\ reachable_world w1 /\ g_pres g' = new_presenter (g_size g') UTF_8.
Proof.
  intros R D P NN. destruct (displays_maps d w i g nodes _ R P D) as (m & rest & NM & CM). destruct D as (G & T & _).
  pose proof (chain_to_data _ _ _ _ _ T NM) as DA.
  assert (all_named (chain_data m rest)) as AN.
  { assert (Forall (fun m => dget [] m = None) (m :: rest)) as N.
    { clear -NN CM. revert NN. generalize dependent (m :: rest). generalize (fst d :: snd d). induction 1 as [|c m' l l' C CM IH]; intros N; constructor.
      - inversion N as [|? ? N1 N2]; subst. destruct C as (C & _). specialize (C [] ltac:(discriminate)). rewrite N1 in C. exact C.
      - inversion N; subst. auto. }
    clear -N. revert m N. induction rest as [|a rest IH]; intros m N; inversion N as [|? ? N1 N2]; subst; cbn [chain_data]; constructor;
      try (apply dget_None; exact N1); try constructor; auto. }
  destruct (C47_proof w i g _ wrap R G DA AN) as (out & So & L). exists out. split; [exact So|]. intros w0 R0.
  destruct (L w0 UTF_8 R0) as (w1 & g' & d' & Lo & G' & SZ & DA' & SD & U1 & U2).
  destruct (load_pres _ _ _ _ _ Lo) as (g2 & size & G2 & P2). assert (g2 = g') by congruence. subst g2.
  assert (size = g_size g) as ->. { unfold g_size in *. rewrite P2 in SZ. cbn in SZ. exact SZ. }
  destruct (same_chain _ _ _ SD) as (m' & rest' & -> & SN).
  assert (reachable_world w1) as R1.
  { replace w1 with (fst (exec w0 (LoadString out UTF_8 false))) by (cbn [exec]; rewrite Lo; reflexivity).
    apply rw_step; [exact R0|]. split; constructor. }
  destruct (maps_display d w1 _ g' _ m' rest' R1 G' P2 DA') as (nodes' & D').
  { clear -CM SN. revert SN. generalize dependent (m' :: rest'). revert CM. generalize (m :: rest), (fst d :: snd d).
    intros l l0 CM. induction CM as [|c a lc la C CM IH]; intros l' SN; inversion SN; subst; constructor; auto. eapply content_same; eauto. }
  exists w1, g', nodes'. split; [exact Lo|]. split; [exact D'|]. split; [exact SZ|]. split; [split; [exact U1|exact U2]|]. split; [exact R1|]. rewrite SZ. exact P2.
Qed.
