(** Moves, setup stones (C20) and saving and loading whole games (C47). *)
From Verif Require Import Base Bytes PyStr Dict SgfGrammarModel SgfGrammarSpec SgfTreeConvModel CommonModel
  SgfPropsModel SgfPropsSpec SgfValueSpec BoardSpec SgfGrammarProofs SgfParserProofs SgfErrorProofs SgfTreeConvProofs
  SgfPropsProofs SgfValueProofs SgfTreeModel SgfTreeSpec SgfTreeProofs SgfNodeProofs SgfGameProofs
  SgfTreeMainProofs SgfNavProofs.

Lemma only_changes_types w n ks w' k t : only_changes w n ks w' -> type_of w n k t -> type_of w' n k t.
Proof.
  intros OC (x & pr & E & P & T). destruct (only_changes_pres _ _ _ _ _ _ OC E P) as (x' & E' & P').
  exists x', pr. auto.
Qed.
Lemma only_changes_context w n ks w' c : only_changes w n ks w' -> context_of w n c -> context_of w' n c.
Proof.
  intros OC (x & pr & E & P & T). destruct (only_changes_pres _ _ _ _ _ _ OC E P) as (x' & E' & P').
  exists x', pr. auto.
Qed.
Lemma type_lt w n k t : type_of w n k t -> (n < List.length (w_nodes w))%nat.
Proof. intros (x & pr & E & _). eapply node_at_lt; eauto. Qed.

Lemma move_key_good c : good_ident (move_key c) /\ move_key c <> str "SZ".
Proof.
  destruct c; (split; [split; [discriminate|split; [cbn; lia|]]|discriminate]);
  repeat constructor; vm_compute; discriminate.
Qed.

Lemma get_raw_list_dget w n x k r : node_at w n = Some x ->
  (get_raw_list w n k = Ok r <-> dget k (t_props x) = Some r) /\
  (get_raw_list w n k = Err KeyError <-> dget k (t_props x) = None).
Proof.
  intros E. unfold get_raw_list. rewrite E. destruct (dget k (t_props x)); split; split; try congruence.
Qed.

Lemma get_raw_move_of w n c s : (n < List.length (w_nodes w))%nat ->
  get_raw_list w n (move_key c) = Ok [s] ->
  get_raw_list w n (move_key (match c with Black => White | White => Black end)) = Err KeyError ->
  get_raw_move w n = Ok (Some (c, s)).
Proof.
  intros L A B. destruct (node_at_some _ _ L) as (x & E).
  apply (get_raw_list_dget _ _ _ _ [s] E) in A. apply (get_raw_list_dget _ _ _ _ [s] E) in B.
  unfold get_raw_move. rewrite E. destruct c; cbn [move_key] in *; rewrite ?A, ?B; auto.
Qed.

Lemma context_size w n c : context_of w n c -> size_of w n = c_size c.
Proof. intros (x & pr & E & P & C). unfold size_of. rewrite E, P, C. auto. Qed.

Definition BW : list bytes := [str "B"; str "W"].

Lemma C20_set_move_proof w n co m x : reachable_world w -> type_of w n (move_key co) PT_move ->
  context_of w n x -> c_size x <= 25 -> (forall p, m = Some p -> on_board (c_size x) p) ->
  exists w', set_move w n co m = (w', Ok tt) /\ only_changes w n [str "B"; str "W"] w' /\
    get_move w' n = Ok (Some (co, m)) /\
    get_raw_list w' n (move_key (match co with Black => White | White => Black end)) = Err KeyError.
Proof.
  intros R T C Sz OB. pose proof (type_lt _ _ _ _ T) as L. pose proof (reachable_inv _ R) as IV.
  destruct (drop_keys_changes w n BW L) as [OC0 DK].
  assert (edited w n (drop_keys w n BW)) as ED.
  { apply drop_keys_edits; auto; [apply inv_wf; auto|]. intros [H|[H|[]]]; discriminate. }
  pose proof (edited_inv _ _ _ ED IV) as IV0.
  pose proof (only_changes_types _ _ _ _ _ _ OC0 T) as T0.
  pose proof (only_changes_context _ _ _ _ _ OC0 C) as C0.
  unfold set_move. fold BW. set (w0 := drop_keys w n BW) in *.
  destruct (move_key_good co) as [GI NS].
  destruct T0 as (y & pr & E & P & T1). destruct C0 as (y0 & pr0 & E0 & P0 & C1).
  rewrite E in E0. injection E0 as <-. rewrite P in P0. injection P0 as <-.
  pose proof (inv_wf _ IV0) as W. destruct (wf_owner _ W _ _ E) as (g & G). destruct (inv_size _ IV0 _ _ G) as [B _].
  assert (1 <= c_size x <= 25) as B2.
  { unfold pres_of in P. rewrite G in P. simpl in P. injection P as <-. unfold g_size in B. rewrite C1 in B. lia. }
  destruct (C16_round_proof (c_size x) m B2) as (s & SE & IE).
  { intros p ->. apply OB. reflexivity. }
  assert (serialise_as_type PT_move (move_value m) x = Ok [s]) as SA.
  { unfold serialise_as_type. cbn [uses_list]. destruct m as [p|]; cbn [move_value serialise_single];
    rewrite SE; reflexivity. }
  unfold set_prop, on_node. rewrite E, P. apply good_ident_valid in GI. rewrite GI. cbn [negb].
  unfold serialise. rewrite T1. cbn [bind]. rewrite C1, SA.
  destruct (core_ok w0 n y pr (move_key co) [s] E P ltac:(congruence)) as (w' & -> & GR & OC).
  exists w'. split; auto.
  assert (only_changes w n [str "B"; str "W"] w') as OCT.
  { eapply only_changes_incl; [eapply only_changes_trans; [exact OC0|exact OC]|].
    intros k H. apply in_app_iff in H. destruct H as [H|[<-|[]]]; auto. destruct co; simpl; auto. }
  split; auto.
  assert (get_raw_list w' n (move_key (match co with Black => White | White => Black end)) = Err KeyError) as GO.
  { destruct OC as (OC & _). rewrite OC; [apply DK; destruct co; simpl; auto|].
    right. intros [H|[]]; destruct co; discriminate. }
  split; auto.
  destruct (only_changes_pres _ _ _ _ _ _ OC E P) as (y' & E' & P').
  unfold get_move. rewrite (get_raw_move_of w' n co s); auto; [|eapply node_at_lt; eauto]. cbn [bind].
  assert (size_of w' n = c_size x) as -> by (apply context_size; exists y', pr; auto).
  rewrite IE. reflexivity.
Qed.

(** A failing [set_move] has already removed the old move. *)
Lemma C20_set_move_fails_proof w n co m e w' : reachable_world w -> (n < List.length (w_nodes w))%nat ->
  set_move w n co m = (w', Err e) ->
  only_changes w n [str "B"; str "W"] w' /\ get_move w' n = Ok None.
Proof.
  intros R L H. pose proof (reachable_inv _ R) as IV.
  destruct (drop_keys_changes w n BW L) as [OC0 DK].
  assert (edited w n (drop_keys w n BW)) as ED.
  { apply drop_keys_edits; auto; [apply inv_wf; auto|]. intros [X|[X|[]]]; discriminate. }
  pose proof (edited_inv _ _ _ ED IV) as IV0. unfold set_move in H. fold BW in H.
  set (w0 := drop_keys w n BW) in *.
  assert (w' = w0) as ->.
  { assert (n < List.length (w_nodes w0))%nat as L0 by (rewrite (edited_length _ _ _ ED); auto).
    destruct (node_pres w0 n (inv_wf _ IV0) L0) as (x & pr & E & P & S).
    revert H. unfold set_prop, on_node. rewrite E, P. destruct (negb _); [intros H; injection H; auto|].
    destruct (serialise pr (move_key co) (move_value m)); [|intros H; injection H; auto].
    unfold set_raw_list_core. destruct (_ && _); [intros H; injection H; auto|discriminate]. }
  split; [exact OC0|]. unfold get_move, get_raw_move.
  assert (n < List.length (w_nodes w0))%nat as L0 by (rewrite (edited_length _ _ _ ED); auto).
  destruct (node_at_some _ _ L0) as (x & E). rewrite E.
  pose proof (DK (str "B") ltac:(simpl; auto)) as DB. pose proof (DK (str "W") ltac:(simpl; auto)) as DW.
  fold w0 in DB, DW. apply (get_raw_list_dget _ _ _ _ [] E) in DB. apply (get_raw_list_dget _ _ _ _ [] E) in DW.
  rewrite DB, DW. reflexivity.
Qed.

Definition key3 : list bytes := [str "AB"; str "AW"; str "AE"].

Lemma key3_good k : In k key3 -> good_ident k /\ k <> str "SZ".
Proof.
  intros [<-|[<-|[<-|[]]]]; (split; [split; [discriminate|split; [cbn; lia|]]|discriminate]);
  repeat constructor; vm_compute; discriminate.
Qed.

Lemma set_points_ok w n k l c : inv w -> In k key3 -> type_of w n k PT_point_list -> context_of w n c ->
  c_size c <= 25 -> Forall (on_board (c_size c)) l -> get_raw_list w n k = Err KeyError ->
  exists w' l', set_points w n k l = (w', Ok tt) /\ inv w' /\ only_changes w n [k] w' /\
    get_points w' n k = Ok l' /\ same_points l l'.
Proof.
  intros IV I T C Sz OB K. destruct (key3_good k I) as [GI NS]. destruct l as [|p l].
  - exists w, []. split; auto. split; auto. split; [|split; [|intros q; tauto]].
    + split; [|split; [|split; [|split]]]; auto; tauto.
    + unfold get_points, get_prop. rewrite K. reflexivity.
  - destruct (set_prop_ok w n k (VPoints (p :: l)) PT_point_list c IV GI NS T C Sz) as (w' & v' & S & OC & GP & RB).
    { simpl. split; [discriminate|auto]. }
    cbn [reads_back] in RB. destruct v'; try contradiction. destruct RB as [RB _].
    exists w', l0. split; [exact S|]. split.
    { pose proof (set_prop_edits w n k (VPoints (p :: l)) (type_lt _ _ _ _ T) (inv_wf _ IV)) as ED.
      unfold edits in ED. rewrite S in ED. eapply edited_inv; eauto. }
    split; auto. split; auto. unfold get_points. rewrite GP. auto.
Qed.

Lemma get_points_frame w n k ks w' : only_changes w n ks w' -> ~ In k ks -> (n < List.length (w_nodes w))%nat ->
  wf w -> get_points w' n k = get_points w n k.
Proof.
  intros OC NI L W. destruct (node_pres w n W L) as (x & pr & E & P & _).
  destruct (only_changes_pres _ _ _ _ _ _ OC E P) as (x' & E' & P').
  unfold get_points, get_prop. rewrite E, E', P, P'. destruct OC as (OC & _). rewrite OC; auto.
Qed.

Lemma C20_set_setup_proof w n b wh e c : reachable_world w ->
  type_of w n (str "AB") PT_point_list -> type_of w n (str "AW") PT_point_list ->
  type_of w n (str "AE") PT_point_list -> context_of w n c -> c_size c <= 25 ->
  Forall (on_board (c_size c)) b -> Forall (on_board (c_size c)) wh -> Forall (on_board (c_size c)) e ->
  exists w' b' wh' e', set_setup_stones w n b wh e = (w', Ok tt) /\
    only_changes w n [str "AB"; str "AW"; str "AE"] w' /\
    get_setup_stones w' n = Ok (b', wh', e') /\
    same_points b b' /\ same_points wh wh' /\ same_points e e'.
Proof.
  intros R TB TW TE C Sz OB OW OE. pose proof (type_lt _ _ _ _ TB) as L. pose proof (reachable_inv _ R) as IV.
  destruct (drop_keys_changes w n key3 L) as [OC0 DK].
  assert (edited w n (drop_keys w n key3)) as ED.
  { apply drop_keys_edits; auto; [apply inv_wf; auto|]. intros [X|[X|[X|[]]]]; discriminate. }
  pose proof (edited_inv _ _ _ ED IV) as IV0.
  unfold set_setup_stones. fold key3. set (w0 := drop_keys w n key3) in *.
  destruct (set_points_ok w0 n (str "AB") b c) as (w1 & b' & -> & IV1 & OC1 & GB & SB); auto; try (simpl; tauto).
  { eapply only_changes_types; eauto. } { eapply only_changes_context; eauto. } { apply DK. simpl; auto. }
  pose proof (only_changes_trans _ _ _ _ _ _ OC0 OC1) as OC01. cbn [then_do].
  destruct (set_points_ok w1 n (str "AW") wh c) as (w2 & wh' & -> & IV2 & OC2 & GW & SW); auto; try (simpl; tauto).
  { eapply only_changes_types; eauto. } { eapply only_changes_context; eauto. }
  { destruct OC1 as (OC1 & _). rewrite OC1; [apply DK; simpl; auto|]. right. intros [X|[]]; discriminate. }
  pose proof (only_changes_trans _ _ _ _ _ _ OC01 OC2) as OC02. cbn [then_do].
  destruct (set_points_ok w2 n (str "AE") e c) as (w3 & e' & -> & IV3 & OC3 & GE & SE); auto; try (simpl; tauto).
  { eapply only_changes_types; eauto. } { eapply only_changes_context; eauto. }
  { destruct OC2 as (OC2 & _). rewrite OC2; [|right; intros [X|[]]; discriminate].
    destruct OC1 as (OC1 & _). rewrite OC1; [apply DK; simpl; auto|]. right. intros [X|[]]; discriminate. }
  pose proof (only_changes_trans _ _ _ _ _ _ OC02 OC3) as OC03.
  exists w3, b', wh', e'. split; auto. split.
  { eapply only_changes_incl; [exact OC03|]. intros k H. simpl in H. simpl. tauto. }
  split; [|auto].
  assert (forall w k t, type_of w n k t -> (n < List.length (w_nodes w))%nat) as LT by (intros; eapply type_lt; eauto).
  unfold get_setup_stones.
  rewrite (get_points_frame w2 n (str "AB") [str "AE"] w3 OC3); [|intros [X|[]]; discriminate| |apply inv_wf; auto].
  2:{ eapply LT. eapply only_changes_types; [exact OC02|exact TB]. }
  rewrite (get_points_frame w1 n (str "AB") [str "AW"] w2 OC2); [|intros [X|[]]; discriminate| |apply inv_wf; auto].
  2:{ eapply LT. eapply only_changes_types; [exact OC01|exact TB]. }
  rewrite GB. cbn [bind].
  rewrite (get_points_frame w2 n (str "AW") [str "AE"] w3 OC3); [|intros [X|[]]; discriminate| |apply inv_wf; auto].
  2:{ eapply LT. eapply only_changes_types; [exact OC02|exact TB]. }
  rewrite GW. cbn [bind]. rewrite GE. reflexivity.
Qed.

(** ** Saving and loading *)

Lemma flat_len_in {A B} (f : A -> list B) l x : In x l -> (List.length (f x) <= List.length (flat_map f l))%nat.
Proof.
  induction l as [|y l IH]; [contradiction|]. intros [->|H]; cbn [flat_map]; rewrite app_length; [lia|].
  specialize (IH H). lia.
Qed.

Lemma tree_data_ok w n t : tree_of w n t -> forall fuel, (List.length (labels t) <= fuel)%nat ->
  exists d, tree_data fuel w n = Ok d /\ data_of w n d.
Proof.
  intros T. induction T as [n x ts E F IH] using tree_of_ind2. intros fuel L.
  destruct fuel as [|f]; [cbn [labels List.length] in L; lia|].
  cbn [labels List.length] in L. cbn [tree_data]. rewrite E.
  destruct (mapm_forall2 (tree_data f w) (data_of w) (t_kids x)) as (l' & -> & F2).
  { assert (forall t, In t ts -> (List.length (labels t) <= f)%nat) as LT.
    { intros t H. pose proof (flat_len_in labels ts t H). lia. }
    clear E L F. induction IH as [|k t ks ts H IH IH2]; constructor.
    - apply H. apply LT. simpl; auto.
    - apply IH2. intros u Hu. apply LT. simpl; auto. }
  cbn [bind]. eexists. split; [reflexivity|]. constructor; auto.
Qed.

Lemma data_of_fun w n d : data_of w n d -> forall d', data_of w n d' -> d = d'.
Proof.
  revert n. induction d as [m ks IH] using ntree_ind'. intros n H d' H'.
  inversion H as [? x ? E F]; subst. inversion H' as [? x' ts' E' F']; subst.
  rewrite E in E'. injection E' as <-. f_equal.
  clear H H' E. revert ts' F'. revert IH. induction F as [|a b l l' Hab F IHF]; intros IH ts' F'.
  - inversion F'; auto.
  - inversion F' as [|? c ? l2 Hac F2]; subst. inversion IH as [|? ? I1 I2]; subst. f_equal; eauto.
Qed.

Lemma data_of_all w (P : pmap -> Prop) : (forall n x, node_at w n = Some x -> P (t_props x)) ->
  forall d n, data_of w n d -> all_nodes P d.
Proof.
  intros H d. induction d as [m ks IH] using ntree_ind'. intros n D. inversion D as [? x ? E F]; subst.
  constructor; [eauto|]. clear D E. induction F; constructor; inversion IH; subst; eauto.
Qed.

Fixpoint csize (t : ctree) : nat :=
  match t with CT _ ch => S (fold_right (fun x n => (csize x + n)%nat) O ch) end.

Lemma denotes_size ct : forall nt, denotes ct nt -> (csize ct <= ntree_size nt)%nat.
Proof.
  induction ct as [sq ch IH] using ctree_ind'. induction sq as [|m sq IHs]; intros nt D; [inversion D|].
  inversion D as [? ? ts F|? m' sq' ? t D']; subst.
  - cbn [csize ntree_size]. apply le_n_S. clear D IHs. induction F; [constructor|].
    cbn [fold_right]. inversion IH; subst. apply Nat.add_le_mono; auto.
  - specialize (IHs _ D'). cbn [csize ntree_size fold_right] in *. lia.
Qed.

Lemma read_coarse_ok h ct : forall i fuel, reads_coarse h i ct -> (csize ct <= fuel)%nat -> read_coarse fuel h i = Ok ct.
Proof.
  induction ct as [sq ch IH] using ctree_ind'. intros i fuel R L. destruct fuel as [|f]; [cbn [csize] in L; lia|].
  inversion R as [? ? ks ? E F]; subst. cbn [read_coarse]. rewrite E. cbn [g_kids g_seq].
  assert (mapm (read_coarse f h) ks = Ok ch) as ->; [|reflexivity].
  cbn [csize] in L. clear E R. revert L. induction F as [|a b l l' H F IHF]; intros L; [reflexivity|].
  inversion IH as [|? ? I1 I2]; subst. cbn [fold_right] in L. cbn [mapm].
  rewrite (I1 a f H) by lia. cbn [bind]. rewrite IHF; auto. lia.
Qed.

Lemma denotes_good ct : forall nt, denotes ct nt -> all_nodes good_node nt -> good_tree ct.
Proof.
  induction ct as [sq ch IH] using ctree_ind'. induction sq as [|m sq IHs]; intros nt D A; [inversion D|].
  inversion D as [? ? ts F|? m' sq' ? t D']; subst; inversion A as [? ? Pm Fm]; subst.
  - constructor; [discriminate|constructor; [auto|constructor]|].
    clear D IHs A Pm. induction F; constructor; inversion IH; inversion Fm; subst; eauto.
  - inversion Fm as [|? ? A1 _]; subst. specialize (IHs _ D' A1). inversion IHs; subst.
    constructor; [discriminate|constructor; auto|auto].
Qed.

Lemma denotes_same ct : forall ct' nt nt', denotes ct nt -> denotes ct' nt' -> same_tree ct ct' -> same_data_tree nt nt'.
Proof.
  induction ct as [sq ch IH] using ctree_ind'. induction sq as [|m sq IHs]; intros ct' nt nt' D D' S; [inversion D|].
  inversion S as [? sq2 ? ch2 Fs Fc]; subst. inversion Fs as [|? m2 ? sq3 Sm Fs']; subst.
  inversion D as [? ? ts F|? m' sq' ? t D1]; subst.
  - inversion Fs'; subst. inversion D' as [? ? ts2 F2|]; subst. constructor; auto.
    clear D D' S Fs Fs' IHs Sm. revert ts F ts2 F2. induction Fc as [|a b l l' Hab Fc IHF]; intros ts F ts2 F2.
    + inversion F; inversion F2; constructor.
    + inversion F; inversion F2; inversion IH; subst. constructor; eauto.
  - inversion Fs' as [|? m3 ? sq4 S3 Fs4]; subst. inversion D' as [|? ? ? ? t2 D2]; subst.
    constructor; auto. constructor; [|constructor]. eapply IHs; eauto. constructor; auto.
Qed.

Lemma lookup_dget k m : lookup k m = dget k m.
Proof. induction m as [|[k' v] m IH]; simpl; auto. destruct (bytes_eqb k k'); auto. Qed.

Lemma load_game_ok w t e size m sq : inv w -> parsed_tree t -> c_sequence t = m :: sq ->
  match dget (str "SZ") m with None => Ok 19 | Some [] => Err IndexError | Some (s :: _) => py_int s end = Ok size ->
  1 <= size <= 26 ->
  exists w' nt, load_game w t e false = (w', Ok tt) /\ denotes t nt /\
    game_at w' (List.length (w_games w)) = Some (mkGame (List.length (w_nodes w)) (new_presenter size e)) /\
    data_of w' (List.length (w_nodes w)) nt /\
    (forall n x, node_at w n = Some x -> node_at w' n = Some x) /\
    (forall i g, game_at w i = Some g -> game_at w' i = Some g).
Proof.
  intros I PT ES Hs B. unfold load_game. destruct t as [sq0 ch]. cbn [c_sequence] in *. subst sq0.
  rewrite Hs. replace (negb ((1 <=? size) && (size <=? 26))) with false by (symmetry; apply negb_false_iff; lia).
  destruct (ntree_of_root _ m sq ch eq_refl) as (ks & EN). rewrite EN.
  pose proof (ntree_of_denotes _ (parsed_seqs_ok _ PT)) as DN. rewrite EN in DN.
  pose proof (parsed_all _ PT) as PA. rewrite EN in PA. inversion PA as [? ? PM PK]; subst.
  assert (inv (alloc_game w size e m)) as I0.
  { apply alloc_inv; auto. unfold sz_agrees. destruct (dget (str "SZ") m) as [[|v r]|]; [discriminate| |congruence].
    exists v, r. auto. }
  assert (node_at (alloc_game w size e m) (List.length (w_nodes w)) = Some (mkT (List.length (w_games w)) None [] m)) as E0.
  { rewrite alloc_at, Nat.eqb_refl. reflexivity. }
  destruct (load_kids_all ks _ _ _ E0 (inv_wf _ I0)) as (W1 & X1 & (cs & N1 & S1) & K1 & P1). unfold load_kids in *.
  set (w1 := fold_left (fun w' k => load_below k (List.length (w_nodes w)) w') ks (alloc_game w size e m)) in *.
  exists w1, (NT m ks). split; [reflexivity|]. split; auto.
  destruct X1 as (GE & _). unfold game_at. rewrite GE. fold (game_at (alloc_game w size e m)).
  split; [|split; [|split]].
  - change (game_at (alloc_game w size e m) (List.length (w_games w)) = Some (mkGame (List.length (w_nodes w)) (new_presenter size e))).
    rewrite alloc_game_at, Nat.eqb_refl. reflexivity.
  - replace (NT m ks) with (NT (t_props (with_kids ([] ++ cs) (mkT (List.length (w_games w)) None [] m))) ks) by reflexivity.
    econstructor; [exact N1|]. cbn [with_kids t_kids app]. eapply Forall2_mono; [|exact S1].
    intros a b Hab. eapply stored_data; eauto.
  - intros n x E. apply K1.
    + intros ->. apply node_at_lt in E. lia.
    + rewrite alloc_at. destruct (Nat.eqb_spec n (List.length (w_nodes w))) as [->|]; auto.
      apply node_at_lt in E. lia.
  - intros i g G. change (game_at (alloc_game w size e m) i = Some g). rewrite alloc_game_at.
    destruct (Nat.eqb_spec i (List.length (w_games w))) as [->|]; auto. apply game_at_lt in G. lia.
Qed.

Lemma named_good d : all_nodes parsed_node d -> all_named d -> all_nodes good_node d.
Proof.
  induction d as [m ks IH] using ntree_ind'. intros A N. inversion A as [? ? P F]; subst. inversion N as [? ? Q G]; subst.
  constructor.
  - destruct P as [ND P]. split; auto. rewrite Forall_forall in *. intros [k vs] H. specialize (P _ H). cbn [fst snd] in *.
    destruct P as ((L & U) & V). split; [|exact V]. split; [|split; auto]. intros ->. apply Q.
    change (@nil ascii) with (fst (@nil ascii, vs)). apply in_map. exact H.
  - clear P Q A N. induction IH; constructor; inversion F; inversion G; subst; auto.
Qed.

Lemma C47_proof w i g d wrap : reachable_world w -> game_at w i = Some g ->
  data_of w (g_root g) d -> all_named d ->
  exists out, serialise_game w g wrap = Ok out /\
    forall w0 e, reachable_world w0 -> exists w1 g' d',
      load_string w0 out e false = (w1, Ok tt) /\
      game_at w1 (List.length (w_games w0)) = Some g' /\
      g_size g' = g_size g /\ data_of w1 (g_root g') d' /\ same_data_tree d d' /\
      (forall n x, node_at w0 n = Some x -> node_at w1 n = Some x) /\
      (forall j gj, game_at w0 j = Some gj -> game_at w1 j = Some gj).
Proof.
  intros R G D N. pose proof (reachable_inv _ R) as IV. pose proof (inv_wf _ IV) as W.
  destruct (inv_size _ IV _ _ G) as (B & x & Ex & SZ).
  destruct (tree_exists _ _ _ W Ex) as (t & T).
  destruct (tree_data_ok _ _ _ T (List.length (w_nodes w)) (labels_length _ _ _ W T)) as (d0 & TD & D0).
  pose proof (data_of_fun _ _ _ D _ D0) as <-.
  destruct (make_coarse_ok d) as (h & ct & MC & DC & CC & RC).
  assert (good_tree ct) as GT.
  { eapply denotes_good; eauto. apply named_good; auto. eapply data_of_all; [|exact D]. apply (inv_props _ IV). }
  destruct (C10_game_proof ct wrap GT) as (out & t' & SE & PE & ST).
  exists out. split.
  { unfold serialise_game. rewrite TD. cbn [bind]. rewrite MC. cbn [bind].
    rewrite (read_coarse_ok h ct O (ntree_size d) RC (denotes_size _ _ DC)). cbn [bind]. exact SE. }
  intros w0 e R0. unfold load_string. rewrite PE.
  destruct (C11_game_proof out) as [(t2 & E2 & PT)|E2]; [|congruence]. rewrite PE in E2. injection E2 as <-.
  destruct D0 as [n x0 ts Ex0 F]. rewrite Ex in Ex0. injection Ex0 as <-.
  destruct t' as [sq' ch']. destruct ct as [sq ch]. inversion ST as [? ? ? ? Fs Fc]; subst.
  assert (exists m' sq2, sq' = m' :: sq2 /\ same_node (t_props x) m') as (m' & sq2 & -> & SN).
  { inversion DC; subst; inversion Fs; subst; eauto. }
  destruct (load_game_ok w0 (CT (m' :: sq2) ch') e (g_size g) m' sq2 (reachable_inv _ R0) PT eq_refl)
    as (w1 & nt & LE & DN & G1 & D1 & K1 & K2); auto.
  { rewrite <- lookup_dget, <- SN, lookup_dget. unfold sz_agrees in SZ.
    destruct (dget (str "SZ") (t_props x)) as [vs|]; [|congruence]. destruct SZ as (v & r & -> & ->). reflexivity. }
  exists w1, (mkGame (List.length (w_nodes w0)) (new_presenter (g_size g) e)), nt.
  split; auto. split; auto. split; [reflexivity|]. split; auto. split; auto.
  eapply denotes_same; eauto.
Qed.

(** Every game is data. *)
Lemma data_exists w i g : reachable_world w -> game_at w i = Some g -> exists d, data_of w (g_root g) d.
Proof.
  intros R G. pose proof (reachable_inv _ R) as IV. pose proof (inv_wf _ IV) as W.
  destruct (inv_size _ IV _ _ G) as (B & x & Ex & SZ).
  destruct (tree_exists _ _ _ W Ex) as (t & T).
  destruct (tree_data_ok _ _ _ T (List.length (w_nodes w)) (labels_length _ _ _ W T)) as (d0 & TD & D0). eauto.
Qed.

(** Loading a string: it succeeds exactly when the text is a game and its SZ is an integer
    in range; the new game holds the tree that the text denotes. *)
Lemma C47_load_proof w s e : reachable_world w ->
  match parse_sgf_game s with
  | Err ex => load_string w s e false = (w, Err ValueError)
  | Ok t =>
      exists m sq, c_sequence t = m :: sq /\
      let size := match dget (str "SZ") m with None => Ok 19 | Some [] => Err IndexError | Some (v :: _) => py_int v end in
      match size with
      | Ok n =>
          if (1 <=? n) && (n <=? 26) then
            exists w' g nt, load_string w s e false = (w', Ok tt) /\
              game_at w' (List.length (w_games w)) = Some g /\ g_size g = n /\
              denotes t nt /\ data_of w' (g_root g) nt /\
              (forall n x, node_at w n = Some x -> node_at w' n = Some x) /\
              (forall j gj, game_at w j = Some gj -> game_at w' j = Some gj)
          else load_string w s e false = (w, Err ValueError)
      | Err _ => load_string w s e false = (w, Err ValueError)
      end
  end.
Proof.
  intros R. unfold load_string. destruct (C11_game_proof s) as [(t & -> & PT)| ->]; [|reflexivity].
  destruct t as [[|m sq] ch]; [inversion PT; congruence|]. exists m, sq. split; [reflexivity|]. cbv zeta.
  assert (parsed_node m) as [_ PM] by (inversion PT as [? ? ? F _]; inversion F; auto).
  destruct (match dget (str "SZ") m with None => Ok 19 | Some [] => Err IndexError | Some (v :: _) => py_int v end) as [n|ex] eqn:ES.
  - destruct ((1 <=? n) && (n <=? 26)) eqn:B.
    + destruct (load_game_ok w (CT (m :: sq) ch) e n m sq (reachable_inv _ R) PT eq_refl ES ltac:(lia))
        as (w' & nt & A1 & A2 & A3 & A4 & A5 & A6).
      exists w', (mkGame (List.length (w_nodes w)) (new_presenter n e)), nt. auto 9.
    + unfold load_game. cbn [c_sequence]. rewrite ES, B. reflexivity.
  - unfold load_game. cbn [c_sequence]. rewrite ES.
    assert (ex = ValueError) as ->; [|reflexivity].
    destruct (dget (str "SZ") m) as [[|v r]|] eqn:DG; [|clear DG|discriminate].
    + apply dget_In in DG. rewrite Forall_forall in PM. destruct (PM _ DG) as (_ & X & _). cbn in X. congruence.
    + unfold py_int in ES. revert ES. clear.
      repeat match goal with |- context[match ?x with _ => _ end] => destruct x end; congruence.
Qed.
