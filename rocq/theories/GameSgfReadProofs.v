(** Proofs about the game records (C57): reading the game back; the worlds that are reached. *)
From Verif Require Import Base Bytes PyStr Dict BoardModel BoardSpec BoardProofs BoardPlayProofs BoardMainProofs CommonModel SgfGrammarModel SgfGrammarSpec
  SgfTreeConvModel SgfGrammarProofs SgfTreeConvProofs SgfPropsModel SgfPropsSpec SgfPropsProofs SgfValueSpec SgfValueProofs SgfTypeErrorProofs
  SgfTreeModel SgfTreeSpec SgfTreeProofs SgfNodeProofs SgfGameProofs SgfTreeMainProofs SgfSaveProofs SgfMovesModel SgfMovesSpec SgfMovesProofs
  GameplayModel GameSgfModel GameSgfSpec SgfChainProofs GameSgfProofs GameSgfDocProofs.

(** ** Black stones alone, not filling the board, are a legal position *)

Lemma black_legal size stones e : on_board size e -> ~ In e stones ->
  legal size (setup_position empty_position stones [] []).
Proof.
  intros OE NE. set (pos := setup_position empty_position stones [] []).
  assert (forall q, pos q = None \/ pos q = Some Black) as TWO.
  { intros q. unfold pos, setup_position. cbn [mem_point]. destruct (mem_point q stones); auto. }
  assert (pos e = None) as EE.
  { unfold pos, setup_position. cbn. destruct (mem_point e stones) eqn:M; [|reflexivity]. apply mem_point_In in M. contradiction. }
  intros p OP NP. assert (pos p = Some Black) as BP by (destruct (TWO p); congruence).
  assert (forall n q, Z.abs (fst q - fst e) + Z.abs (snd q - snd e) <= Z.of_nat n -> on_board size q -> BoardSpec.connected size pos p q -> pos q = Some Black ->
            has_liberty size pos p) as H.
  { induction n as [|n IH]; intros [a b] D O C B.
    - destruct e as [c d]. cbn [fst snd] in D. assert (a = c) by lia. assert (b = d) by lia. subst. congruence.
    - assert (exists q', adj (a, b) q' /\ on_board size q' /\ Z.abs (fst q' - fst e) + Z.abs (snd q' - snd e) <= Z.of_nat n) as (q' & A & O' & D').
      { destruct e as [c d]. unfold on_board, adj in *. cbn [fst snd] in *.
        destruct (Z.lt_trichotomy a c) as [L|[->|L]].
        - exists (a + 1, b). cbn [fst snd]. lia.
        - destruct (Z.lt_trichotomy b d) as [L|[->|L]].
          + exists (c, b + 1). cbn [fst snd]. lia.
          + exfalso. congruence.
          + exists (c, b - 1). cbn [fst snd]. lia.
        - exists (a - 1, b). cbn [fst snd]. lia. }
      destruct (TWO q') as [N|B'].
      + exists (a, b), q'. auto.
      + apply (IH q'); auto. econstructor; eauto. congruence. }
  apply (H (Z.to_nat (Z.abs (fst p - fst e) + Z.abs (snd p - snd e))) p); auto; [lia|constructor].
Qed.

Definition board_points (size : Z) : list point :=
  list_prod (map Z.of_nat (seq 0 (Z.to_nat size))) (map Z.of_nat (seq 0 (Z.to_nat size))).

Lemma board_points_In size p : In p (board_points size) <-> on_board size p.
Proof.
  destruct p as [a b]. unfold board_points. etransitivity; [apply in_prod_iff|]. rewrite !in_map_iff. unfold on_board. cbn [fst snd]. split.
  - intros ((x & <- & X) & (y & <- & Y)). apply in_seq in X. apply in_seq in Y. lia.
  - intros H. split; [exists (Z.to_nat a)|exists (Z.to_nat b)]; rewrite in_seq; lia.
Qed.

Lemma NoDup_join {A} (l l' : list A) : NoDup l -> NoDup l' -> (forall x, In x l -> ~ In x l') -> NoDup (l ++ l').
Proof.
  intros N N' H. induction N as [|a l I N IH]; [exact N'|]. cbn [app]. constructor.
  - rewrite in_app_iff. intros [J|J]; [contradiction|]. exact (H a (or_introl eq_refl) J).
  - apply IH. intros x X. apply H. right. exact X.
Qed.

Lemma NoDup_list_prod {A B} (l : list A) (l' : list B) : NoDup l -> NoDup l' -> NoDup (list_prod l l').
Proof.
  intros N N'. induction N as [|a l I N IH]; [constructor|]. cbn [list_prod]. apply NoDup_join.
  - apply FinFun.Injective_map_NoDup; [intros x y E; congruence|exact N'].
  - exact IH.
  - intros x H H2. apply in_map_iff in H as (y & <- & Y). apply in_prod_iff in H2. tauto.
Qed.

Lemma free_point size stones : 0 <= size -> Z.of_nat (List.length stones) < size * size -> exists e, on_board size e /\ ~ In e stones.
Proof.
  intros P L. destruct (existsb (fun p => negb (mem_point p stones)) (board_points size)) eqn:E.
  - apply existsb_exists in E as (e & I & M). exists e. split; [apply board_points_In; exact I|]. intros IN. apply mem_point_In in IN.
    rewrite IN in M. discriminate.
  - exfalso. assert (incl (board_points size) stones) as IC.
    { intros p I. apply mem_point_In. destruct (mem_point p stones) eqn:M; [reflexivity|]. exfalso.
      assert (existsb (fun p => negb (mem_point p stones)) (board_points size) = true) as T by (apply existsb_exists; exists p; rewrite M; auto).
      congruence. }
    assert (NoDup (board_points size)) as ND.
    { apply NoDup_list_prod; apply FinFun.Injective_map_NoDup; try apply seq_NoDup; intros x y; lia. }
    pose proof (NoDup_incl_length ND IC) as LE. 
    assert (List.length (board_points size) = Z.to_nat size * Z.to_nat size)%nat as LN.
    { unfold board_points. etransitivity; [apply prod_length|]. rewrite !map_length, !seq_length. reflexivity. }
    nia.
Qed.

(** ** Reading a document *)

Lemma shows_get w n c k t v : node_shows w c n -> k <> str "C" -> dget k (ct_props c) = Some (t, v) -> value_is w n k t v.
Proof. intros (A & _) N E. specialize (A k N). rewrite E in A. exact A. Qed.
Lemma shows_none w n c k : node_shows w c n -> k <> str "C" -> dget k (ct_props c) = None -> has_property w n k = false.
Proof. intros (A & _) N E. specialize (A k N). rewrite E in A. exact A. Qed.

Lemma no_prop_key w n k x : node_at w n = Some x -> has_property w n k = false -> dget k (t_props x) = None.
Proof. intros E H. unfold has_property in H. rewrite E in H. unfold dmem in H. destruct (dget k (t_props x)); [discriminate|reflexivity]. Qed.

Lemma no_points w n k x : node_at w n = Some x -> has_property w n k = false -> get_points w n k = Ok [].
Proof.
  intros E H. unfold get_points, get_prop, get_raw_list. rewrite E, (no_prop_key _ _ _ _ E H). reflexivity.
Qed.

Lemma size_of_pres w n x pr : node_at w n = Some x -> pres_of w x = Some pr -> size_of w n = c_size (pr_context pr).
Proof. intros E P. unfold size_of. rewrite E, P. reflexivity. Qed.

Definition other_key (c : colour) : bytes := match c with Black => str "W" | White => str "B" end.

Lemma shows_move w n x size c col mv : node_at w n = Some x -> pres_of w x = Some (new_presenter size UTF_8) ->
  node_shows w c n -> dget (move_key col) (ct_props c) = Some (PT_move, move_value mv) -> dget (other_key col) (ct_props c) = None ->
  get_move w n = Ok (Some (col, mv)).
Proof.
  intros E P S M O. assert (move_key col <> str "C") as NK by (destruct col; discriminate).
  assert (other_key col <> str "C") as NK' by (destruct col; discriminate).
  pose proof (shows_get _ _ _ _ _ _ S NK M) as (v' & G & R).
  pose proof (shows_none _ _ _ _ S NK' O) as N. pose proof (no_prop_key _ _ _ _ E N) as N'.
  cbn [reads_back] in R. subst v'. unfold get_prop, get_raw_list in G. rewrite E in G.
  destruct (dget (move_key col) (t_props x)) as [raw|] eqn:D; [|discriminate]. cbn [bind] in G. rewrite P in G.
  unfold interpret in G.
  assert (effective_type (new_presenter size UTF_8) (move_key col) = Ok PT_move) as ET by (destruct col; reflexivity).
  rewrite ET in G. cbn [bind] in G. unfold interpret_as_type in G. cbn [uses_list] in G.
  destruct raw as [|s raw]; [discriminate|]. cbn [interpret_single] in G.
  assert (interpret_go_point s size = Ok mv) as I.
  { change (c_size (pr_context (new_presenter size UTF_8))) with size in G. destruct raw; [|discriminate].
    destruct (interpret_go_point s size) as [[q|]|]; cbn [bind] in G; try discriminate; destruct mv; cbn [move_value] in G; congruence. }
  unfold get_move, get_raw_move. rewrite E.
  assert (size_of w n = size) as SZ by (rewrite (size_of_pres _ _ _ _ E P); reflexivity).
  destruct col; cbn [move_key other_key] in *.
  - rewrite D. cbn [bind]. rewrite SZ, I. reflexivity.
  - rewrite N', D. cbn [bind]. rewrite SZ, I. reflexivity.
Qed.

Lemma line_leftmost nodes : forall n, leftmost (line n nodes) = n :: nodes.
Proof. induction nodes as [|m nodes IH]; intros n; [reflexivity|]. cbn [line leftmost]. rewrite IH. reflexivity. Qed.

Lemma mem_point_same p l l' : same_points l l' -> mem_point p l = mem_point p l'.
Proof.
  intros S. destruct (mem_point p l) eqn:A, (mem_point p l') eqn:B; auto; exfalso.
  - apply mem_point_In in A. apply S in A. apply mem_point_In in A. congruence.
  - apply mem_point_In in B. apply S in B. apply mem_point_In in B. congruence.
Qed.

Lemma legal_ext size pos pos' : (forall p, pos p = pos' p) -> legal size pos -> legal size pos'.
Proof.
  intros E L p O N. rewrite <- E in N. destruct (L p O N) as (q & l & C & A & OL & NL). exists q, l.
  split; [|rewrite <- E; auto]. clear -E C. induction C as [|q r C IH A O EQ]; [constructor|]. econstructor; eauto. rewrite <- !E. exact EQ.
Qed.

Lemma read_proof pick d w i g nodes stones moves e : reachable_world w -> displays d w i g nodes ->
  g_pres g = new_presenter (g_size g) UTF_8 -> 2 <= g_size g -> plays d stones moves ->
  on_board (g_size g) e -> ~ In e stones ->
  exists b, get_setup_and_moves pick w g None = (Some b, Ok moves) /\ reachable (g_size g) b /\
    forall p, on_board (g_size g) p -> (In p stones -> view b p = Some Black) /\ (~ In p stones -> view b p = None).
Proof.
  intros R D P SZ (AB & NO & PM) OE NE. destruct D as (G & T & SR & SN).
  pose proof (nodes_pres w i g nodes R G T) as NP. rewrite P in NP.
  inversion NP as [|? ? (x & E & PR) NP']; subst.
  assert (str "AB" <> str "C") as NAB by discriminate.
  assert (forall k, In k [str "AB"; str "AW"; str "AE"] -> type_of w (g_root g) k PT_point_list) as TY.
  { intros k I. exists x, (new_presenter (g_size g) UTF_8). split; [exact E|]. split; [exact PR|].
    destruct I as [<-|[<-|[<-|[]]]]; reflexivity. }
  destruct (C21_read_proof pick w i g _ None R G T ltac:(discriminate) SZ TY) as (b & r & GS & RB & M).
  assert (forall k, In k [str "AW"; str "AE"; str "B"; str "W"] -> has_property w (g_root g) k = false) as NP0.
  { intros k I. eapply shows_none; eauto. destruct I as [<-|[<-|[<-|[<-|[]]]]]; discriminate. }
  assert (exists ab, get_setup_stones w (g_root g) = Ok (ab, [], []) /\ same_points stones ab /\ (ab = [] <-> stones = []) ) as (ab & GSS & SP & EQ0).
  { unfold get_setup_stones. rewrite (no_points w _ (str "AW") x E) by (apply NP0; simpl; tauto).
    rewrite (no_points w _ (str "AE") x E) by (apply NP0; simpl; tauto).
    destruct stones as [|p l].
    - exists []. pose proof (shows_none _ _ _ _ SR NAB AB) as N. rewrite (no_points w _ (str "AB") x E N). split; [reflexivity|].
      split; [intros q; reflexivity|tauto].
    - destruct (shows_get _ _ _ _ _ _ SR NAB AB) as (v' & GP & RBK). destruct v'; try contradiction. destruct RBK as (SP & _).
      exists l0. unfold get_points at 1. rewrite GP. split; [reflexivity|]. split; [exact SP|]. split; intros H; [|discriminate].
      subst. exfalso. apply (SP p). left. reflexivity. }
  assert (get_move w (g_root g) = Ok None) as GM.
  { apply get_move_none. unfold get_raw_move. rewrite E.
    rewrite (no_prop_key w _ (str "B") x E) by (apply NP0; simpl; tauto).
    rewrite (no_prop_key w _ (str "W") x E) by (apply NP0; simpl; tauto). reflexivity. }
  assert (moves_of w nodes moves /\ Forall (no_setup w) nodes) as (MO & NS).
  { clear -PM SN NP'. revert nodes SN NP'. induction PM as [|c cm l ms (HN & HM) PM IH]; intros nodes SN NP'; inversion SN as [|? n ? ns S SN']; subst.
    - split; constructor.
    - inversion NP' as [|? ? (x & E & PR) NP2]; subst. destruct (IH _ SN' NP2) as (A & B). destruct cm as [col mv]. split.
      + apply mo_move; [|exact A]. eapply shows_move; eauto. apply HN. right. right. right. left. reflexivity.
      + constructor; [|exact B]. intros k I. eapply shows_none; eauto; [|apply HN].
        * destruct I as [<-|[<-|[<-|[]]]]; discriminate.
        * destruct I as [<-|[<-|[<-|[]]]]; simpl; tauto. }
  assert (no_setup w (g_root g) <-> stones = []) as NSR.
  { split.
    - intros H. destruct stones as [|p l]; [reflexivity|]. exfalso. destruct (shows_get _ _ _ _ _ _ SR NAB AB) as (v' & GP & _).
      specialize (H (str "AB") ltac:(simpl; tauto)). unfold get_prop, get_raw_list in GP. rewrite E, (no_prop_key _ _ _ _ E H) in GP. discriminate.
    - intros -> k I. destruct I as [<-|I]; [exact (shows_none _ _ _ _ SR NAB AB)|]. apply NP0. simpl in *. tauto. }
  assert (readable w g (line (g_root g) nodes) ab [] [] moves) as RD.
  { split; [exact GSS|]. split.
    - eapply legal_ext; [|eapply black_legal; eauto]. intros p. unfold setup_position. cbn [mem_point]. rewrite (mem_point_same p _ _ SP). reflexivity.
    - split; [intros _; exact GM|]. unfold move_nodes. rewrite app_nil_r, line_leftmost. cbn [tl].
      destruct ab as [|a ab].
      + split; [constructor; [apply NSR; apply EQ0; reflexivity|exact NS]|]. apply mo_skip; auto.
      + split; auto. }
  destruct r as [ms|ex].
  - destruct M as (ab' & aw' & ae' & RD' & V). destruct (readable_fun _ _ _ _ _ _ _ _ _ _ _ RD RD') as (<- & <- & <- & <-).
    exists b. split; [exact GS|]. split; [exact RB|]. intros p O. rewrite (V p O). unfold setup_position. cbn [mem_point].
    rewrite <- (mem_point_same p _ _ SP). split; intros H.
    + apply mem_point_In in H. rewrite H. reflexivity.
    + destruct (mem_point p stones) eqn:Mp; [apply mem_point_In in Mp; contradiction|reflexivity].
  - exfalso. destruct M as (_ & M). exact (M _ _ _ _ RD).
Qed.

(** ** The worlds reached *)

Definition keeps (w : world) (o : outcome) : Prop :=
  reachable_world (fst o) /\ (List.length (w_nodes w) <= List.length (w_nodes (fst o)))%nat.

Lemma keeps_then w o f : keeps w o -> (forall w', reachable_world w' -> (List.length (w_nodes w) <= List.length (w_nodes w'))%nat -> keeps w' (f w')) ->
  keeps w (then_do o f).
Proof.
  intros (R & L) H. destruct o as [w' [u|e]]; cbn [then_do fst] in *; [|split; auto]. destruct (H w' R L) as (R' & L'). split; [exact R'|lia].
Qed.

Lemma keeps_edits w n o op : reachable_world w -> (n < List.length (w_nodes w))%nat -> edits w n o -> exec w op = o -> op_nodes op = [n] -> op_games op = [] -> keeps w o.
Proof.
  intros R L Ed Ex ON OG. split.
  - rewrite <- Ex. apply rw_step; [exact R|]. split; [rewrite ON; constructor; auto|rewrite OG; constructor].
  - unfold edits in Ed. rewrite (edited_length _ _ _ Ed). lia.
Qed.

Lemma wf_of w : reachable_world w -> wf w.
Proof. intros R. exact (inv_wf _ (reachable_inv _ R)). Qed.

Lemma keeps_set w n k v : reachable_world w -> (n < List.length (w_nodes w))%nat -> keeps w (set_prop w n k v).
Proof. intros R L. eapply (keeps_edits w n _ (SetProp n k v)); eauto. apply set_prop_edits; auto using wf_of. Qed.
Lemma keeps_done w : reachable_world w -> keeps w (done w).
Proof. intros R. split; [exact R|]. cbn. lia. Qed.
Lemma keeps_raise w e : reachable_world w -> keeps w (raise w e).
Proof. intros R. split; [exact R|]. cbn. lia. Qed.
Lemma keeps_set_opt w n k v : reachable_world w -> (n < List.length (w_nodes w))%nat -> keeps w (set_opt w n k v).
Proof. intros R L. destruct v; [apply keeps_set; auto|apply keeps_done; auto]. Qed.
Lemma keeps_setup w n b wh e : reachable_world w -> (n < List.length (w_nodes w))%nat -> keeps w (set_setup_stones w n b wh e).
Proof. intros R L. eapply (keeps_edits w n _ (SetSetup n b wh e)); eauto. apply set_setup_edits; auto using wf_of. Qed.
Lemma keeps_move w n c m : reachable_world w -> (n < List.length (w_nodes w))%nat -> keeps w (set_move w n c m).
Proof. intros R L. eapply (keeps_edits w n _ (SetMove n c m)); eauto. apply set_move_edits; auto using wf_of. Qed.
Lemma keeps_comment w n s : reachable_world w -> (n < List.length (w_nodes w))%nat -> keeps w (add_comment_text w n s).
Proof. intros R L. eapply (keeps_edits w n _ (AddComment n s)); eauto. apply add_comment_edits; auto using wf_of. Qed.

Lemma last_node_lt fuel : forall w n m, last_node fuel w n = Ok m -> (m < List.length (w_nodes w))%nat.
Proof.
  induction fuel as [|f IH]; intros w n m; cbn [last_node]; destruct (node_at w n) as [x|] eqn:E; try discriminate;
    destruct (t_kids x) as [|c ks]; intros H; try discriminate; try (injection H as <-; eapply node_at_lt; eauto). eapply IH; eauto.
Qed.

Lemma keeps_on_last w g f : reachable_world w -> (forall n, (n < List.length (w_nodes w))%nat -> keeps w (f n)) -> keeps w (on_last w g f).
Proof.
  intros R H. unfold on_last. destruct (last_node _ w (g_root g)) as [n|] eqn:E; [|apply keeps_raise; auto]. apply H. eapply last_node_lt; eauto.
Qed.

Lemma extend_grows w g : reachable_world w -> reachable_world (fst (extend_main_sequence w g)) /\
  match extend_main_sequence w g with
  | (w', Ok _) => List.length (w_nodes w') = S (List.length (w_nodes w))
  | (w', Err _) => w' = w
  end.
Proof.
  intros R. unfold extend_main_sequence. destruct (last_node _ w (g_root g)) as [n|] eqn:E; [|split; [exact R|reflexivity]].
  pose proof (last_node_lt _ _ _ _ E) as L. split.
  - change (new_child w n None) with (exec w (NewChild n None)). apply rw_step; [exact R|]. split; repeat constructor; auto.
  - unfold new_child. destruct (node_at_some w n L) as (x & Ex). rewrite Ex. cbn [done]. apply (new_node_length w n None [] x Ex).
Qed.

Lemma keeps_record g ms : forall w, reachable_world w -> keeps w (record_game w g ms).
Proof.
  induction ms as [|[[c m] cm] ms IH]; intros w R; cbn [record_game]; [apply keeps_done; auto|].
  destruct (extend_grows w g R) as (R1 & L1). destruct (extend_main_sequence w g) as [w1 [u|e]]; cbn [then_do fst] in *.
  2:{ subst. apply keeps_raise; auto. }
  assert (keeps w1 (then_do (set_move w1 (List.length (w_nodes w)) c m) (fun w2 =>
      then_do (set_opt w2 (List.length (w_nodes w)) (str "C") (option_map VText cm)) (fun w3 => record_game w3 g ms)))) as (A & B).
  { apply keeps_then; [apply keeps_move; auto; lia|]. intros w2 R2 L2. apply keeps_then; [apply keeps_set_opt; auto; lia|].
    intros w3 R3 L3. apply IH. exact R3. }
  split; [exact A|lia].
Qed.

Lemma make_reachable version today r w : reachable_world w -> reachable_world (fst (make_sgf version today r w)).
Proof.
  intros R. unfold make_sgf. cbv zeta.
  assert (reachable_world (fst (new_game w (ru_size r) UTF_8))) as R1.
  { change (new_game w (ru_size r) UTF_8) with (exec w (NewGame (ru_size r) UTF_8)). apply rw_step; [exact R|]. split; constructor. }
  destruct (Z.leb_spec 1 (ru_size r)) as [L|L]; [destruct (Z.leb_spec (ru_size r) 26) as [L'|L']|].
  2,3: unfold new_game in *; replace (negb ((1 <=? ru_size r) && (ru_size r <=? 26))) with true in * by (symmetry; apply negb_true_iff; lia); exact R1.
  rewrite new_game_eq in * by lia. cbn [fst then_do] in *. set (w1 := alloc_game w (ru_size r) UTF_8 (new_root_props (ru_size r) UTF_8)) in *.
  change (g_root (new_sgf (ru_size r) w)) with (List.length (w_nodes w)).
  assert (List.length (w_nodes w) < List.length (w_nodes w1))%nat as LT by (unfold w1, alloc_game; cbn [w_nodes]; rewrite app_length; cbn; lia).
  refine (proj1 (keeps_then w1 _ _ _ _)); [apply keeps_set; auto|]. intros w2 R2 L2.
  apply keeps_then; [apply keeps_set; auto; lia|]. intros w3 R3 L3.
  apply keeps_then; [apply keeps_set_opt; auto; lia|]. intros w4 R4 L4.
  apply keeps_then; [apply keeps_set_opt; auto; lia|]. intros w5 R5 L5.
  apply keeps_then; [apply keeps_set; auto; lia|]. intros w6 R6 L6.
  apply keeps_then; [destruct (ru_stones r) as [[|p l]|]; try (apply keeps_done; auto); apply keeps_setup; auto; lia|]. intros w7 R7 L7.
  apply keeps_then; [apply keeps_record; auto|]. intros w8 R8 L8.
  destruct (ru_final r) as [[c t]|]; [|apply keeps_done; auto]. apply keeps_on_last; auto. intros n L9. apply keeps_comment; auto.
Qed.
