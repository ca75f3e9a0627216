(** Proofs about showing a position (C75). *)
From Verif Require Import Base Bytes PyStr Dict BoardModel BoardSpec BoardProofs BoardPlayProofs BoardMainProofs CommonModel CommonProofs DiagramProofs
  SgfGrammarModel SgfPropsModel SgfTreeModel SgfTreeSpec SgfMovesModel SgfMovesSpec SgfMovesProofs SgfCharsetModel SgfCharsetSpec SgfCharsetMainProofs
  SgfTreeProofs SgfNodeProofs SgfGameProofs SgfTreeMainProofs GtpModel GtpStateModel GtpStateSpec GtpStateProofs GtpLoadProofs ShowSgfModel ShowSgfSpec.
From Verif Require SgfTreeProofs.

(** ** The diagram *)
Lemma label_proof size z : 1 <= z <= size -> size <= 25 -> row_start size z = row_label size z ++ str " ".
Proof.
  intros H1 H2. unfold row_start, row_label.
  assert (forall n, (1 <= n <= 25)%nat -> pad_left 2 (str_int (Z.of_nat n)) = if Z.of_nat n <? 10 then str " " ++ str_int (Z.of_nat n) else str_int (Z.of_nat n)) as F.
  { intros n H. do 26 (destruct n as [|n]; [try lia; reflexivity|]). lia. }
  specialize (F (Z.to_nat z) ltac:(lia)). rewrite Z2Nat.id in F by lia. rewrite F. destruct (9 <? size), (z <? 10); reflexivity.
Qed.
Lemma spaced_join (l : list bytes) : l <> [] -> join (str " ") (map (fun s => str " " ++ s) l) = str " " ++ join (str "  ") l.
Proof.
  induction l as [|a l IH]; intros N; [congruence|]. destruct l as [|b l]; [reflexivity|].
  change (map (fun s => str " " ++ s) (a :: b :: l)) with ((str " " ++ a) :: map (fun s => str " " ++ s) (b :: l)).
  assert (forall s x xs, xs <> [] -> join s (x :: xs) = x ++ s ++ join s xs) as J by (intros s x [|y ys] Ne; [congruence|reflexivity]).
  rewrite !J by discriminate. rewrite IH by discriminate. rewrite <- !app_assoc. reflexivity.
Qed.
Lemma row_proof size p row : 0 <= row < size -> 2 <= size <= 25 -> row_text size p row = diagram_row size p row.
Proof.
  intros H1 H2. unfold row_text, diagram_row. rewrite label_proof by lia. rewrite <- app_assoc. f_equal.
  assert (map (fun col => point_string (p (row, col))) (range size) = map (fun s => str " " ++ s) (map (fun col => str (point_sign (p (row, col)))) (range size))) as ->.
  { rewrite map_map. apply map_ext. intros col. destruct (p (row, col)) as [[]|]; reflexivity. }
  rewrite spaced_join; [reflexivity|]. intros E. apply map_eq_nil in E. assert (In 0 (range size)) as I by (apply In_range; lia). rewrite E in I. destruct I.
Qed.
Lemma footer_proof size : 2 <= size <= 25 -> footer size = (if 9 <? size then str "    " else str "   ") ++ join (str "  ") (map (fun c => [c]) (firstn (Z.to_nat size) letters)).
Proof.
  intros H. replace size with (Z.of_nat (Z.to_nat size)) by lia. set (n := Z.to_nat size). assert (2 <= n <= 25)%nat as L by lia. clearbody n. clear H size.
  do 26 (destruct n as [|n]; [try lia; reflexivity|]). lia.
Qed.
Lemma diagram_proof b : BoardProofs.wf b -> 2 <= side b <= 25 -> render_board b = Ok (diagram (side b) (view b)).
Proof.
  intros W Hs. unfold render_board. rewrite render_grid_text by auto. cbn [bind]. unfold diagram. rewrite footer_proof by exact Hs. do 3 f_equal.
  apply map_ext_in. intros row I. apply in_rev in I. apply In_range in I. apply row_proof; lia.
Qed.
Lemma diagram_26 b : side b = 26 -> render_board b = Err IndexError.
Proof. intros E. unfold render_board, render_grid. rewrite E. reflexivity. Qed.
Lemma diagram_same size p q : same_on size p q -> diagram size p = diagram size q.
Proof.
  intros S. unfold diagram. do 2 f_equal. apply map_ext_in. intros row I. apply in_rev in I. apply In_range in I. unfold diagram_row. do 3 f_equal.
  apply map_ext_in. intros col J. apply In_range in J. rewrite (S (row, col)); [reflexivity|]. split; assumption.
Qed.

(** ** Making the plays *)
Lemma plays_proof pick s : forall ms b, reachable s b -> Forall (fun cm => forall p, snd cm = Some p -> on_board s p) ms ->
  match make_plays pick b ms with
  | Ok b' => reachable s b' /\ replays s (view b) ms (view b')
  | Err e => e = ValueError /\ exists l1 c q l2 p, ms = l1 ++ (c, Some q) :: l2 /\ replays s (view b) l1 p /\ on_board s q /\ p q <> None
  end.
Proof.
  induction ms as [|[c [[row col]|]] ms IH]; intros b R F; cbn [make_plays].
  - split; [exact R|]. apply rp_done, same_on_refl.
  - inversion F as [|? ? Fh Fl]; subst. specialize (Fh _ eq_refl).
    destruct (play_cases pick s b (row, col) c R) as [(O & V & b' & ko & E & R' & M & _)|[(O & V & E)|(O & _)]]; [| |contradiction]; cbn [fst snd] in E; rewrite E.
    + specialize (IH b' R' Fl). destruct (make_plays pick b' ms) as [b2|e].
      * destruct IH as [R2 P2]. split; [exact R2|]. eapply rp_move; eauto.
      * destruct IH as (-> & l1 & c1 & q & l2 & p & -> & P & Oq & N). split; [reflexivity|]. exists ((c, Some (row, col)) :: l1), c1, q, l2, p.
        split; [reflexivity|]. split; [eapply rp_move; eauto|auto].
    + split; [reflexivity|]. exists [], c, (row, col), ms, (view b). split; [reflexivity|]. split; [apply rp_done, same_on_refl|]. auto.
  - inversion F as [|? ? Fh Fl]; subst. specialize (IH b R Fl). destruct (make_plays pick b ms) as [b2|e].
    + destruct IH as [R2 P2]. split; [exact R2|]. apply rp_pass. exact P2.
    + destruct IH as (-> & l1 & c1 & q & l2 & p & -> & P & Oq & N). split; [reflexivity|]. exists ((c, None) :: l1), c1, q, l2, p.
      split; [reflexivity|]. split; [apply rp_pass; exact P|auto].
Qed.

(** ** The file *)
Lemma from_cases reg src :
  (exists e w, from_string reg empty_world src None = (w, Ok tt) /\ load_string empty_world src e false = (w, Ok tt)) \/
  from_string reg empty_world src None = (empty_world, Err ValueError) \/
  (from_string reg empty_world src None = (empty_world, Err TypeError) /\
   exists t m sq n r, parse_sgf_game src = Ok t /\ c_sequence t = m :: sq /\ lookup (str "CA") m = Some (n :: r) /\ has_nul n).
Proof.
  pose proof (C67_from_string_proof reg empty_world src None) as H. destruct (parse_sgf_game src) as [t|ex] eqn:EP; [|right; left; exact H].
  destruct H as (m & sq & n & EM & RU & H1 & H2 & H3).
  destruct (existsb (fun c => ord c =? 0) n) eqn:EN.
  - assert (has_nul n) as HN. { apply existsb_exists in EN. destruct EN as (c & I & Z). exists c. split; [exact I|]. apply Z.eqb_eq. exact Z. }
    destruct (H3 HN) as (ex & [->| ->] & E); [right; left; exact E|]. right; right. split; [exact E|].
    inversion RU as [|? ? r L|? L]; subst; [exists t, m, sq, n, r; auto|].
    exfalso. destruct HN as (c & I & Z). vm_compute in I. repeat (destruct I as [<-|I]; [vm_compute in Z; discriminate|]). exact I.
  - assert (~ has_nul n) as HN. { intros (c & I & Z). assert (existsb (fun c => ord c =? 0) n = true); [|congruence]. apply existsb_exists. exists c. split; [exact I|]. apply Z.eqb_eq. exact Z. }
    destruct (reg n) as [e|] eqn:ER; [|right; left; apply H2; auto]. specialize (H1 e eq_refl HN).
    destruct (load_string empty_world src e false) as [w [u|ex]] eqn:L; [destruct u; left; exists e, w; auto|]. right; left.
    pose proof L as L'. apply load_error in L'. subst ex. rewrite H1. f_equal.
    unfold load_string in L. rewrite EP in L. unfold load_game in L. rewrite EM in L.
    destruct (match dget (str "SZ") m with Some (v :: _) => py_int v | Some [] => Err IndexError | None => Ok 19 end) as [size|ex]; [|unfold raise in L; congruence].
    destruct (negb _); [unfold raise in L; congruence|]. destruct (ntree_of t). discriminate.
Qed.

Lemma show_proof reg pick src n :
  match show_sgf_file reg pick src n with
  | Shown text => exists size setup ms p, game_in reg src size setup ms /\ 2 <= size <= 25 /\ replays size setup (wanted n ms) p /\ text = diagram size p ++ [char_lf; char_lf]
  | NotShown BadFile => from_string reg empty_world src None = (empty_world, Err ValueError)
  | NotShown BadGame => (exists w, from_string reg empty_world src None = (w, Ok tt)) /\ forall size setup ms, 2 <= size -> ~ game_in reg src size setup ms
  | NotShown IllegalMove => exists size setup ms l1 c q l2 p, game_in reg src size setup ms /\ wanted n ms = l1 ++ (c, Some q) :: l2 /\ replays size setup l1 p /\ on_board size q /\ p q <> None
  | NotShown (OtherReason e) =>
      (e = TypeError /\ from_string reg empty_world src None = (empty_world, Err TypeError)) \/
      (e = IndexError /\ exists setup ms p, game_in reg src 26 setup ms /\ replays 26 setup (wanted n ms) p)
  end.
Proof.
  unfold show_sgf_file. destruct (from_cases reg src) as [(e & w & E & L)|[E|[E _]]]; rewrite E; [|reflexivity|left; auto].
  pose proof (load_reachable _ _ _ _ L) as R. destruct (load_one _ _ _ _ L) as (g & sz & ET & G & P & Sz & GS). rewrite G.
  destruct (C19_tree_proof w 0 g R G) as (t & T & _).
  assert (forall size setup ms, game_in reg src size setup ms -> size = g_size g /\ exists ab aw ae, readable w g t ab aw ae ms /\ setup = setup_position empty_position ab aw ae) as GI.
  { intros size setup ms (w' & g' & t' & ab & aw & ae & E' & G' & S' & T' & RD & ES). assert (w' = w) by congruence. subst w'. assert (g' = g) by congruence. subst g'.
    assert (t' = t) as -> by (eapply tree_of_fun; eauto). split; [congruence|]. exists ab, aw, ae. auto. }
  destruct (Z.lt_ge_cases (g_size g) 2) as [L2|L2].
  { rewrite C21_unusable_proof; [|discriminate|cbn [usable]; lia]. split; [eauto|]. intros size setup ms H X. apply GI in X. lia. }
  destruct (C21_read_proof pick w 0 g t None R G T) as (b & r & ES & Rb & M); try discriminate; [exact L2| |].
  { intros kk Hk. destruct (root_pres w g R G) as (x & Ex & Px). exists x, (g_pres g). split; [exact Ex|]. split; [exact Px|].
    rewrite P. destruct Hk as [<-|[<-|[<-|[]]]]; reflexivity. }
  rewrite ES. destruct r as [ms|ex].
  2:{ destruct M as [-> M]. split; [eauto|]. intros size setup ms _ X. apply GI in X. destruct X as (_ & ab & aw & ae & RD & _). exact (M _ _ _ _ RD). }
  destruct M as (ab & aw & ae & RD & SV). set (setup := setup_position empty_position ab aw ae) in *.
  assert (game_in reg src (g_size g) setup ms) as GM by (exists w, g, t, ab, aw, ae; auto 10).
  assert ((match n with None => ms | Some z => firstn (Z.to_nat (Z.max 0 (z - 1))) ms end) = wanted n ms) as EW.
  { destruct n as [z|]; [|reflexivity]. cbn [wanted]. f_equal. lia. }
  cbv zeta. rewrite EW.
  assert (Forall (fun cm => forall p, snd cm = Some p -> on_board (g_size g) p) (wanted n ms)) as F.
  { pose proof (readable_on_board w g t ab aw ae ms R G T RD) as F. destruct n as [z|]; [|exact F]. cbn [wanted]. rewrite <- (firstn_skipn (Z.to_nat (z - 1)) ms) in F. apply Forall_app in F. tauto. }
  pose proof (plays_proof pick (g_size g) (wanted n ms) b Rb F) as PP. destruct (make_plays pick b (wanted n ms)) as [b'|ex].
  - destruct PP as [R' PP]. assert (replays (g_size g) setup (wanted n ms) (view b')) as RP by (eapply replays_ext; [exact PP|exact SV|apply same_on_refl]).
    destruct (reachable_good _ _ R') as [[W' _] S'].
    destruct (Z.le_gt_cases (g_size g) 25) as [L25|L25].
    + rewrite diagram_proof by (auto; lia). rewrite S'. exists (g_size g), setup, ms, (view b'). auto 10.
    + assert (g_size g = 26) as E26 by lia. rewrite diagram_26 by lia. right. split; [reflexivity|]. rewrite E26 in *. exists setup, ms, (view b'). auto.
  - destruct PP as (-> & l1 & c & q & l2 & p & EM & RP & O & N). exists (g_size g), setup, ms, l1, c, q, l2, p. split; [exact GM|]. split; [exact EM|].
    split; [|auto]. eapply replays_ext; [exact RP|exact SV|apply same_on_refl].
Qed.
