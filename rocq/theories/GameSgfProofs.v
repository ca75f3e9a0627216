(** Proofs about the game records (C57): the property maps that make_sgf builds. *)
From Verif Require Import Base Bytes PyStr Dict BoardModel BoardSpec CommonModel SgfGrammarModel SgfGrammarSpec
  SgfTreeConvModel SgfGrammarProofs SgfPropsModel SgfPropsSpec SgfValueSpec SgfValueProofs SgfTypeErrorProofs
  SgfTreeModel SgfTreeSpec SgfTreeProofs SgfNodeProofs SgfGameProofs SgfMovesModel GameplayModel GameSgfModel GameSgfSpec
  SgfChainProofs.

Lemma utf8_app u a v b : utf8 u a -> utf8 v b -> utf8 (u ++ v) (a ++ b).
Proof. intros H. induction H; intros V; simpl; auto. rewrite <- app_assoc. constructor; auto. Qed.

Lemma is_utf8_app a b : is_utf8 a -> is_utf8 b -> is_utf8 (a ++ b).
Proof. intros (u & U & F) (v & V & G). exists (u ++ v). split; [apply utf8_app; auto|]. apply Forall_app. auto. Qed.

Lemma ascii_utf8 s : forallb (fun c => ord c <? 128) s = true -> is_utf8 s.
Proof.
  intros H. exists (map ord s). induction s as [|c s IH]; [split; constructor|]. simpl in H. apply andb_prop in H as (A & B).
  destruct (IH B) as (U & F). split.
  - simpl. change (c :: s) with ([c] ++ s). constructor; [|exact U]. pose proof (utf8_char_spec (ord c)) as E.
    pose proof (ord_range c). unfold valid_cp in E. specialize (E ltac:(lia)). rewrite utf8_char_low in E by lia.
    rewrite chr_ord in E. exact E.
  - simpl. constructor; [|exact F]. pose proof (ord_range c). lia.
Qed.

Lemma colour_code_utf8 c : is_utf8 (colour_code c).
Proof. apply ascii_utf8. destruct c; reflexivity. Qed.

Lemma final_message_utf8 c m : is_utf8 m -> is_utf8 (final_message c m).
Proof.
  intros H. unfold final_message. repeat (apply is_utf8_app; [first [exact H|apply colour_code_utf8|apply ascii_utf8; reflexivity]|]).
  apply ascii_utf8. reflexivity.
Qed.

Lemma last_update {A} (l : list A) x y : update (List.length l) y (l ++ [x]) = l ++ [y].
Proof. induction l as [|z l IH]; simpl; [reflexivity|]. f_equal. exact IH. Qed.

Lemma nth_last {A} (l : list A) x d : nth (List.length l) (l ++ [x]) d = x.
Proof. induction l; simpl; auto. Qed.

Lemma update_one {A} (x y : A) : update 0 y [x] = [y].
Proof. reflexivity. Qed.

Lemma Forall2_len {A B} (P : A -> B -> Prop) l l' : Forall2 P l l' -> List.length l = List.length l'.
Proof. induction 1; simpl; auto. Qed.

Lemma exists_last_or {A} (l : list A) : l = [] \/ exists l' x, l = l' ++ [x].
Proof. destruct l as [|a l]; [auto|]. right. destruct (exists_last (l := a :: l)) as (l' & x & E); [discriminate|]. eauto. Qed.

Lemma combine_snoc {A B} (l : list A) (l' : list B) x y : List.length l = List.length l' ->
  combine (l ++ [x]) (l' ++ [y]) = combine l l' ++ [(x, y)].
Proof. revert l'. induction l as [|a l IH]; intros [|b l'] E; simpl in *; try lia; auto. f_equal. apply IH. lia. Qed.

Lemma plain_norm s : forallb (fun c => 33 <=? ord c) s = true -> text_norm s s.
Proof.
  induction s as [|c s IH]; [constructor|]. cbn [forallb]. intros H. apply andb_prop in H as (A & B). apply tn_plain; [|auto].
  intros I. simpl in I. decompose [or] I; subst; try discriminate; contradiction.
Qed.

Lemma simple_utf8 : simpletext_norm (str "UTF-8") (str "UTF-8").
Proof. exists (str "UTF-8"). split; [apply plain_norm; reflexivity|reflexivity]. Qed.

Section Record.
Variables (w0 : world) (size : Z).
Hypothesis (HS : 1 <= size <= 25).
Let pr := new_presenter size UTF_8.
Let base := List.length (w_nodes w0).
Notation W := (world_of w0 pr).

(** [raw] stands for [v]. *)
Definition stands (k : bytes) (t : ptype) (v : pvalue) (raw : list bytes) : Prop :=
  exists v', interpret pr k raw = Ok v' /\ reads_back t v v'.

Lemma set_ok ps j k t v : (j < List.length ps)%nat -> is_valid_property_identifier k = true -> k <> str "SZ" ->
  effective_type pr k = Ok t -> value_ok (pr_context pr) t v ->
  exists raw, set_prop (W ps) (base + j) k v = (W (update j (dset k raw (nth j ps [])) ps), Ok tt) /\ stands k t v raw.
Proof.
  intros L V NS T OK. destruct (C18_proof (pr_context pr) t v HS OK) as (raw & Se & _ & _ & v' & I & R).
  exists raw. split.
  - apply world_set; auto. unfold serialise. rewrite T. exact Se.
  - exists v'. split; [|exact R]. unfold interpret. rewrite T. exact I.
Qed.


(** The property map of a node holds the content. *)
Definition content_map (c : content) (m : pmap) : Prop :=
  (forall k, k <> str "C" ->
     match dget k (ct_props c) with
     | Some (t, v) => exists raw, dget k m = Some raw /\ stands k t v raw
     | None => dget k m = None
     end) /\
  match ct_remark c with
  | None => dget (str "C") m = None
  | Some r => exists raw t, dget (str "C") m = Some raw /\ interpret pr (str "C") raw = Ok (VText t) /\ remark_text r t
  end.

Lemma content_put c m k t v raw : content_map c m -> k <> str "C" -> stands k t v raw ->
  content_map (put k t v c) (dset k raw m).
Proof.
  intros (A & B) NC S. split.
  - intros k' N'. cbn [put ct_props dget]. rewrite dget_dset. destruct (bytes_eqb k' k) eqn:E.
    + destruct (bytes_eqb_spec k' k) as [->|]; [|discriminate]. eauto.
    + apply A. exact N'.
  - cbn [put ct_remark]. rewrite dget_dset_other by (intros <-; auto). exact B.
Qed.

Lemma content_drop c m k : content_map c m -> dget k (ct_props c) = None -> k <> str "C" -> content_map c (ddel k m).
Proof.
  intros (A & B) N NC. split.
  - intros k' N'. rewrite dget_ddel. destruct (bytes_eqb_spec k' k) as [->|]; [rewrite N; reflexivity|]. apply A. exact N'.
  - rewrite dget_ddel. destruct (bytes_eqb_spec (str "C") k) as [<-|]; [congruence|]. exact B.
Qed.

(** The nodes of the game hold the document. *)
Definition shown (d : document) (ps : list pmap) : Prop := Forall2 content_map (fst d :: snd d) ps.

Lemma shown_head d ps : shown d ps -> exists m rest, ps = m :: rest /\ content_map (fst d) m /\ Forall2 content_map (snd d) rest.
Proof. intros H. inversion H as [|? m ? rest A B]. subst. exists m, rest. auto. Qed.

Lemma put_root d ps k t v : shown d ps -> is_valid_property_identifier k = true -> k <> str "SZ" -> k <> str "C" ->
  effective_type pr k = Ok t -> value_ok (pr_context pr) t v ->
  exists ps', set_prop (W ps) base k v = (W ps', Ok tt) /\ shown (on_root (put k t v) d) ps'.
Proof.
  intros S V NS NC T OK. apply shown_head in S as (m & rest & -> & A & B).
  destruct (set_ok (m :: rest) 0 k t v) as (raw & E & St); auto; [cbn; lia|].
  exists (dset k raw m :: rest). split.
  - replace base with (base + 0)%nat by lia. exact E.
  - constructor; [|exact B]. apply content_put; auto.
Qed.

Lemma put_root_if d ps k t o : shown d ps -> is_valid_property_identifier k = true -> k <> str "SZ" -> k <> str "C" ->
  effective_type pr k = Ok t -> (forall v, o = Some v -> value_ok (pr_context pr) t v) ->
  exists ps', set_opt (W ps) base k o = (W ps', Ok tt) /\ shown (on_root (put_if k t o) d) ps'.
Proof.
  intros S V NS NC T OK. destruct o as [v|]; [apply put_root; auto|]. exists ps. split; [reflexivity|].
  destruct d. exact S.
Qed.

Lemma setup_root d ps l : shown d ps -> l <> [] -> Forall (on_board size) l ->
  (forall k, In k [str "AB"; str "AW"; str "AE"] -> dget k (ct_props (fst d)) = None) ->
  exists ps', set_setup_stones (W ps) base l [] [] = (W ps', Ok tt) /\ shown (on_root (put (str "AB") PT_point_list (VPoints l)) d) ps'.
Proof.
  intros S NE OB N. apply shown_head in S as (m & rest & -> & A & B).
  set (m' := ddel (str "AE") (ddel (str "AW") (ddel (str "AB") m))).
  assert (content_map (fst d) m') as A'.
  { unfold m'. repeat (apply content_drop; [|apply N; simpl; tauto|discriminate]). exact A. }
  destruct (put_root d (m' :: rest) (str "AB") PT_point_list (VPoints l)) as (ps' & E & S'); auto; try discriminate.
  { constructor; auto. }
  { split; auto. }
  exists ps'. split; [|exact S']. unfold set_setup_stones. replace base with (base + 0)%nat in * by lia.
  rewrite world_drop by (cbn; lia). cbn [nth fold_left update]. fold m'. unfold set_points.
  destruct l as [|p l]; [congruence|]. fold base. rewrite E. reflexivity.
Qed.

(** Comments. *)
Lemma comment_ok ps j c s : (j < List.length ps)%nat -> content_map c (nth j ps []) -> is_utf8 s ->
  exists m', add_comment_text (W ps) (base + j) s = (W (update j m' ps), Ok tt) /\ content_map (say s c) m'.
Proof.
  intros L C U. unfold add_comment_text. rewrite world_has by exact L. destruct C as (C1 & C2).
  assert (forall raw r t, interpret pr (str "C") raw = Ok (VText t) -> remark_text r t ->
            content_map (mkContent (ct_props c) (Some r)) (dset (str "C") raw (nth j ps []))) as FIN.
  { intros raw r t I R. split.
    - intros k N. cbn [ct_props]. rewrite dget_dset_other by exact N. apply C1. exact N.
    - cbn [ct_remark]. exists raw, t. split; [apply dget_dset_same|]. auto. }
  unfold say. destruct (ct_remark c) as [r|].
  - destruct C2 as (raw0 & t & G & I0 & CT).
    assert (dmem (str "C") (nth j ps []) = true) as D by (unfold dmem; match goal with |- context [dget ?k ?m] => replace (dget k m) with (Some raw0) by (symmetry; exact G) end; reflexivity).
    match goal with |- context [dmem ?k ?m] => replace (dmem k m) with true by (symmetry; exact D) end.
    assert (get_prop (W ps) (base + j) (str "C") = Ok (VText t)) as GP.
    { etransitivity; [apply world_get; exact L|]. match goal with |- context [dget ?k ?m] => replace (dget k m) with (Some raw0) by (symmetry; exact G) end. exact I0. }
    rewrite GP.
    destruct (set_ok ps j (str "C") PT_text (VText (t ++ [char_lf; char_lf] ++ s))) as (raw & E & v' & I & R); auto; [discriminate| |].
    { apply is_utf8_app; [|apply is_utf8_app; [apply ascii_utf8; reflexivity|exact U]].
      exact (C18_utf8_proof PT_text raw0 _ _ I0). }
    eexists. split; [exact E|]. destruct v'; try contradiction. eapply FIN; [exact I|]. econstructor; [exact CT|exact R].
  - assert (dmem (str "C") (nth j ps []) = false) as D by (unfold dmem; match goal with |- context [dget ?k ?m] => replace (dget k m) with (@None (list bytes)) by (symmetry; exact C2) end; reflexivity).
    match goal with |- context [dmem ?k ?m] => replace (dmem k m) with false by (symmetry; exact D) end.
    destruct (set_ok ps j (str "C") PT_text (VText s)) as (raw & E & v' & I & R); auto; [discriminate|].
    eexists. split; [exact E|]. destruct v'; try contradiction. eapply FIN; [exact I|]. constructor. exact R.
Qed.

Lemma last_of_shown d ps : shown d ps ->
  last_node (List.length (w_nodes (W ps))) (W ps) base = Ok (base + List.length (snd d))%nat.
Proof.
  intros S. pose proof (Forall2_len _ _ _ S) as L. cbn [List.length] in L.
  unfold base. rewrite world_last by (destruct ps; discriminate).
  f_equal. rewrite <- L. lia.
Qed.

Lemma say_end d ps s : shown d ps -> is_utf8 s ->
  exists ps', add_comment_text (W ps) (base + List.length (snd d)) s = (W ps', Ok tt) /\ shown (on_end (say s) d) ps'.
Proof.
  intros S U. unfold on_end. destruct (exists_last_or (snd d)) as [E|(l & x & E)]; rewrite E.
  - unfold shown in S. rewrite E in S. inversion S as [|? m ? ? A B]. subst. inversion B. subst.
    destruct (comment_ok [m] 0 (fst d) s) as (m' & E' & C'); [cbn; lia|exact A|exact U|].
    exists [m']. cbn [rev List.length fst snd]. split; [exact E'|]. constructor; [exact C'|constructor].
  - rewrite rev_app_distr. cbn [rev app fst snd]. rewrite rev_involutive.
    unfold shown in S. rewrite E in S. change (fst d :: l ++ [x]) with ((fst d :: l) ++ [x]) in S.
    apply Forall2_app_inv_l in S as (ps1 & l2 & F3 & F4 & ->). inversion F4 as [|? mx ? ? Hx F5 E5 E6]. subst. inversion F5. subst.
    pose proof (Forall2_len _ _ _ F3) as L3. cbn [List.length] in L3.
    destruct (comment_ok (ps1 ++ [mx]) (List.length ps1) x s) as (m' & E' & C').
    { rewrite app_length. cbn. lia. }
    { rewrite nth_last. exact Hx. }
    { exact U. }
    rewrite last_update in E'. exists (ps1 ++ [m']). split.
    + rewrite app_length. cbn [List.length]. replace (List.length l + 1)%nat with (List.length ps1) by lia. exact E'.
    + apply (Forall2_app (l1 := fst d :: l) (l2 := [say s x])); [exact F3|]. constructor; [exact C'|constructor].
Qed.

(** Moves. *)
Lemma move_ok ps c mv cm : ps <> [] -> move_on_board size mv -> (forall t, cm = Some t -> is_utf8 t) ->
  exists m, (let n := List.length (w_nodes (W ps)) in
      then_do (extend_main_sequence (W ps) (new_sgf size w0)) (fun w1 =>
      then_do (set_move w1 n c mv) (fun w2 => set_opt w2 n (str "C") (option_map VText cm)))) = (W (ps ++ [m]), Ok tt) /\
    content_map (the_move (c, mv, cm)) m.
Proof.
  intros NE OB U. cbv zeta. rewrite world_length.
  unfold new_sgf. rewrite (world_extend w0 pr ps _ NE). cbn [then_do].
  set (n := List.length ps).
  assert (n < List.length (ps ++ [[]]))%nat as L by (rewrite app_length; unfold n; cbn; lia).
  destruct (C18_proof (pr_context pr) PT_move (move_value mv) HS) as (raw & Se & _ & _ & v' & I & R).
  { destruct mv as [p|]; simpl; [apply OB; reflexivity|exact I]. }
  assert (stands (move_key c) PT_move (move_value mv) raw) as St.
  { exists v'. split; [|exact R]. unfold interpret. destruct c; exact I. }
  assert (serialise pr (move_key c) (move_value mv) = Ok raw) as Se' by (unfold serialise; destruct c; exact Se).
  assert (set_move (W (ps ++ [[]])) (base + n) c mv = (W (ps ++ [dset (move_key c) raw []]), Ok tt)) as E1.
  { unfold set_move. rewrite world_drop by exact L. unfold n. rewrite nth_last, last_update.
    etransitivity; [apply (world_set w0 pr (ps ++ [[]]) (List.length ps) (move_key c) (move_value mv) raw);
      [exact L|destruct c; reflexivity|destruct c; discriminate|exact Se']|].
    rewrite nth_last, last_update. reflexivity. }
  change (List.length (w_nodes w0) + n)%nat with (base + n)%nat. rewrite E1. cbn [then_do].
  set (m1 := dset (move_key c) raw []) in *.
  assert (content_map (the_move (c, mv, None)) m1) as C1.
  { apply (content_put (mkContent [] None) [] (move_key c) PT_move (move_value mv) raw); [|destruct c; discriminate|exact St].
    split; [intros; reflexivity|reflexivity]. }
  assert (exists m2, set_opt (W (ps ++ [m1])) (base + n) (str "C") (option_map VText cm) = (W (ps ++ [m2]), Ok tt) /\
            content_map (the_move (c, mv, cm)) m2) as (m2 & E2 & C2).
  { destruct cm as [t|]; [|exists m1; split; [reflexivity|exact C1]]. cbn [option_map set_opt].
    destruct (set_ok (ps ++ [m1]) n (str "C") PT_text (VText t)) as (raw2 & E2 & v2 & I2 & R2);
      [rewrite app_length; cbn; unfold n; lia|reflexivity|discriminate|reflexivity|apply U; reflexivity|].
    unfold n in E2. rewrite nth_last, last_update in E2. exists (dset (str "C") raw2 m1). split; [exact E2|].
    destruct C1 as (C1 & _). split.
    - intros k N. rewrite dget_dset_other by exact N. apply (C1 k N).
    - destruct v2; try contradiction. cbn [the_move ct_remark option_map]. exists raw2, s. split; [apply dget_dset_same|].
      split; [exact I2|constructor; exact R2]. }
  exists m2. split; [exact E2|exact C2].
Qed.

Lemma then_assoc o f h : then_do (then_do o f) h = then_do o (fun w => then_do (f w) h).
Proof. destruct o as [w' [u|e]]; reflexivity. Qed.

Lemma record_maps ms : forall ps, ps <> [] -> Forall (fun x => move_on_board size (snd (fst x))) ms ->
  (forall m c, In (m, Some c) ms -> is_utf8 c) ->
  exists ms', record_game (W ps) (new_sgf size w0) ms = (W (ps ++ ms'), Ok tt) /\ Forall2 content_map (map the_move ms) ms'.
Proof.
  induction ms as [|[[c mv] cm] ms IH]; intros ps NE F U.
  { exists []. rewrite app_nil_r. split; [reflexivity|constructor]. }
  destruct (move_ok ps c mv cm NE) as (m & E & C').
  { exact (Forall_inv F). }
  { intros t ->. apply (U (c, mv)). left. reflexivity. }
  destruct (IH (ps ++ [m])) as (ms' & E' & F').
  { destruct ps; discriminate. }
  { exact (Forall_inv_tail F). }
  { intros m' t I. apply (U m'). right. exact I. }
  exists (m :: ms'). split.
  - cbn [record_game]. cbv zeta in E.
    destruct (extend_main_sequence (W ps) (new_sgf size w0)) as [w1 [u1|]]; [|discriminate E]. cbn [then_do] in *.
    destruct (set_move w1 (List.length (w_nodes (W ps))) c mv) as [w2 [u2|]]; [|discriminate E]. cbn [then_do] in *.
    rewrite E. cbn [then_do]. rewrite <- app_assoc in E'. exact E'.
  - cbn [map]. constructor; auto.
Qed.

Lemma record_ok ms : forall r l ps, shown (r, l) ps -> Forall (fun x => move_on_board size (snd (fst x))) ms ->
  (forall m c, In (m, Some c) ms -> is_utf8 c) ->
  exists ps', record_game (W ps) (new_sgf size w0) ms = (W ps', Ok tt) /\ shown (r, l ++ map the_move ms) ps'.
Proof.
  intros r l ps S F U.
  assert (ps <> []) as NE by (apply shown_head in S as (? & ? & -> & _); discriminate).
  destruct (record_maps ms ps NE F U) as (ms' & E & F'). exists (ps ++ ms'). split; [exact E|].
  unfold shown in *. cbn [fst snd] in *. change (r :: l ++ map the_move ms) with ((r :: l) ++ map the_move ms).
  apply Forall2_app; auto.
Qed.

Lemma make_ok version today r :
  ru_size r = size -> recordable r -> is_utf8 version -> is_utf8 today ->
  exists ps, make_sgf version today r w0 = (W ps, Ok tt) /\ shown (the_game version today r) ps.
Proof.
  intros ES R UV UT. unfold make_sgf. change (g_root (new_sgf (ru_size r) w0)) with base. rewrite ES. rewrite new_game_eq by lia.
  change (alloc_game w0 size UTF_8 (new_root_props size UTF_8)) with (W [new_root_props size UTF_8]). cbn [then_do].
  set (d0 := (put (str "CA") PT_simpletext (VText (str "UTF-8")) (
  put (str "SZ") PT_number (VInt size) (
  put (str "GM") PT_number (VInt 1) (
  put (str "FF") PT_number (VInt 4) (mkContent [] None)))), []) : document).
  assert (shown d0 [new_root_props size UTF_8]) as S0.
  { constructor; [|constructor]. cbn [fst d0].
    change (new_root_props size UTF_8) with (dset (str "CA") [str "UTF-8"] (dset (str "SZ") [str_int size]
      (dset (str "GM") [str "1"] (dset (str "FF") [str "4"] [])))).
    apply content_put; [apply content_put; [apply content_put; [apply content_put; [split; [intros; reflexivity|reflexivity]|..]|..]|..]|..];
      try discriminate.
    - exists (VInt 4). split; reflexivity.
    - exists (VInt 1). split; reflexivity.
    - exists (VInt size). split; [|reflexivity]. unfold interpret. change (effective_type pr (str "SZ")) with (Ok PT_number : res ptype).
      cbn [bind]. unfold interpret_as_type. cbn [uses_list interpret_single]. unfold interpret_number. rewrite py_int_str. reflexivity.
    - exists (VText (str "UTF-8")). split; [vm_compute; reflexivity|]. apply simple_utf8. }
  destruct (put_root d0 _ (str "KM") PT_real (komi_value (ru_komi r)) S0) as (p1 & E1 & S1);
    [reflexivity|discriminate|discriminate|reflexivity|exact (rc_komi _ R)|]. rewrite E1. cbn [then_do].
  destruct (put_root _ _ (str "AP") PT_AP (VPair (str "gomill") version) S1) as (p2 & E2 & S2);
    [reflexivity|discriminate|discriminate|reflexivity|split; [apply ascii_utf8; reflexivity|exact UV]|]. rewrite E2. cbn [then_do].
  destruct (put_root_if _ _ (str "RE") PT_simpletext (option_map (fun x => VText (r_sgf x)) (ru_result r)) S2) as (p3 & E3 & S3);
    [reflexivity|discriminate|discriminate|reflexivity| |].
  { intros x Ex. destruct (ru_result r) as [y|] eqn:Ey; [|discriminate]. injection Ex as <-. exact (rc_result _ R _ Ey). }
  rewrite E3. cbn [then_do].
  destruct (put_root_if _ _ (str "HA") PT_number (option_map VInt (ru_handicap r)) S3) as (p4 & E4 & S4);
    [reflexivity|discriminate|discriminate|reflexivity| |].
  { intros x Ex. destruct (ru_handicap r) as [y|] eqn:Ey; [|discriminate]. injection Ex as <-. exact I. }
  rewrite E4. cbn [then_do].
  destruct (put_root _ _ (str "DT") PT_simpletext (VText today) S4) as (p5 & E5 & S5);
    [reflexivity|discriminate|discriminate|reflexivity|exact UT|]. rewrite E5. cbn [then_do].
  set (d5 := on_root (put (str "DT") PT_simpletext (VText today)) _) in S5.
  assert (exists p6, (match ru_stones r with
           | Some (p :: l) => set_setup_stones (W p5) base (p :: l) [] []
           | _ => done (W p5)
           end) = (W p6, Ok tt) /\ shown (the_root version today r, []) p6) as (p6 & E6 & S6).
  { pose proof (rc_stones _ R) as OB. rewrite ES in OB.
    assert (forall o, stones_list (ru_stones r) = o -> the_root version today r =
      put_if (str "AB") PT_point_list (match o with [] => None | l => Some (VPoints l) end) (fst d5)) as TR.
    { intros o <-. unfold the_root. rewrite ES. destruct (stones_list (ru_stones r)); reflexivity. }
    destruct (ru_stones r) as [[|p l]|]; cbn [stones_list] in *.
    - exists p5. split; [reflexivity|]. rewrite (TR [] eq_refl). exact S5.
    - rewrite (TR _ eq_refl). apply (setup_root d5); [exact S5|discriminate|exact OB|].
      intros k [<-|[<-|[<-|[]]]]; unfold d5; cbn [on_root fst put ct_props];
        destruct (ru_handicap r), (ru_result r); reflexivity.
    - exists p5. split; [reflexivity|]. rewrite (TR [] eq_refl). exact S5. }
  rewrite E6. cbn [then_do].
  pose proof (rc_moves _ R) as MB. rewrite ES in MB.
  destruct (record_ok (ru_moves r) _ _ _ S6 MB (rc_comments _ R)) as (p7 & E7 & S7).
  rewrite E7. cbn [then_do app] in *. unfold the_game.
  destruct (ru_final r) as [[c t]|] eqn:EF; [|exists p7; split; [reflexivity|exact S7]].
  unfold on_last. change (g_root (new_sgf size w0)) with base. rewrite (last_of_shown _ _ S7).
  apply say_end; [exact S7|]. apply final_message_utf8. exact (rc_final _ R _ _ EF).
Qed.

End Record.
