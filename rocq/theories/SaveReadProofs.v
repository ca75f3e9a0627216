(** Proofs about saving a game (C63): reading it as a game, and loading it. *)
From Verif Require Import Base Bytes PyStr Dict BoardModel BoardSpec BoardProofs BoardMainProofs CommonModel SgfGrammarModel SgfGrammarSpec
  SgfTreeConvModel SgfGrammarProofs SgfTextProofs SgfPropsModel SgfPropsSpec SgfValueSpec SgfValueProofs SgfTypeErrorProofs
  SgfTreeModel SgfTreeSpec SgfTreeProofs SgfNodeProofs SgfGameProofs SgfTreeMainProofs SgfSaveProofs SgfMovesModel SgfMovesSpec SgfMovesProofs GameplayModel GameSgfModel GameSgfSpec
  SgfChainProofs GameSgfProofs GameSgfDocProofs GameSgfMainProofs GameSgfReadProofs GtpModel GtpStateModel GtpStateSpec GtpStateFinalProofs SaveModel SaveSpec SaveProofs
  SaveMapProofs SaveMainProofs.

Lemma root_value w c opts n k t v : root_shows w c opts n -> ~ In k (names opts) -> dget k (ct_props c) = Some (t, v) -> value_is w n k t v.
Proof. intros H N D. specialize (H k). rewrite (not_given _ _ N), D in H. exact H. Qed.

Lemma root_none w c opts n k : root_shows w c opts n -> ~ In k (names opts) -> dget k (ct_props c) = None -> has_property w n k = false.
Proof. intros H N D. specialize (H k). rewrite (not_given _ _ N), D in H. exact H. Qed.

Lemma says_proof version today st opts first w i g text : served st ->
  (st_handicap st <> Some 0 /\ st_handicap st <> Some 1) ->
  reachable_world w -> g_pres g = new_presenter (st_size st) UTF_8 ->
  load_string empty_world text UTF_8 false = (w, Ok tt) -> game_at w 0 = Some g ->
  shows_state version today st opts first w i g ->
  (forall k, In k [str "AB"; str "AW"; str "AE"; str "B"; str "W"; str "KM"; str "HA"] -> ~ In k (names opts)) ->
  file_says text UTF_8 (st_size st) (komi_read (st_komi st)) (st_handicap st) (view (st_base st)) (moves_made st).
Proof.
  intros SV HN R P LO G0 SS NO. pose proof (C37_replay_proof _ SV) as (_ & S2 & _ & RB & _).
  destruct SS as (nodes & ab & aw & G & SZ & T & SAB & SAW & RS & SN).
  pose proof (nodes_pres w i g nodes R G T) as NP. rewrite P in NP.
  inversion NP as [|? ? (x & E & PR) NP']. subst.
  set (c := saved_root version today st (has_handicap st opts) ab aw first) in *.
  exists w, g, (line (g_root g) nodes). split; [exact LO|]. split; [exact G0|]. split; [exact T|]. split; [exact SZ|].
  split.
  { left. assert (dget (str "KM") (ct_props c) = Some (PT_real, VReal (fst (st_komi st)) (snd (st_komi st)))) as D.
    { unfold c, saved_root. destruct (tells_first _ _ _ _), ab, aw, (st_handicap st); reflexivity. }
    destruct (root_value _ _ _ _ _ _ _ RS (NO (str "KM") ltac:(simpl; tauto)) D) as (v' & GP & RBK). rewrite GP.
    unfold komi_read. cbn [reads_back] in RBK. destruct v'; try contradiction.
    destruct (Z.abs (fst (st_komi st)) * 10000 <? 10 ^ Z.of_nat (snd (st_komi st))); destruct RBK as (-> & ->); reflexivity. }
  split.
  { assert (dget (str "HA") (ct_props c) = match st_handicap st with None => None | Some n => Some (PT_number, VInt n) end) as D.
    { unfold c, saved_root. destruct (tells_first _ _ _ _), ab, aw, (st_handicap st); reflexivity. }
    destruct (st_handicap st) as [n|].
    - destruct (root_value _ _ _ _ _ _ _ RS (NO (str "HA") ltac:(simpl; tauto)) D) as (v' & GP & RBK). cbn [reads_back] in RBK. subst v'. rewrite GP.
      destruct HN as (H0 & H1). destruct (Z.eqb_spec n 0) as [->|]; [congruence|]. destruct (Z.eqb_spec n 1) as [->|]; [congruence|]. reflexivity.
    - pose proof (root_none _ _ _ _ _ RS (NO (str "HA") ltac:(simpl; tauto)) D) as HP. unfold get_prop, get_raw_list. rewrite E.
      pose proof (no_prop_key _ _ _ _ E HP) as N. match goal with |- context [dget ?k ?m] => replace (dget k m) with (@None (list bytes)) by (symmetry; exact N) end. reflexivity. }
  assert (forall k, In k [str "AE"; str "B"; str "W"] -> has_property w (g_root g) k = false) as NP0.
  { intros k I. eapply root_none; [exact RS|apply NO; simpl in *; tauto|].
    unfold c, saved_root. destruct (tells_first _ _ _ _), ab, aw, (st_handicap st); destruct I as [<-|[<-|[<-|[]]]]; reflexivity. }
  assert (forall k l, In (k, l) [(str "AB", ab); (str "AW", aw)] ->
    exists l', get_points w (g_root g) k = Ok l' /\ same_points l l' /\ (l = [] -> has_property w (g_root g) k = false)) as PTS.
  { intros k l I.
    assert (dget k (ct_props c) = match l with [] => None | _ => Some (PT_point_list, VPoints l) end) as D.
    { unfold c, saved_root. destruct (tells_first _ _ _ _), ab, aw, (st_handicap st); destruct I as [I|[I|[]]]; injection I as <- <-; reflexivity. }
    assert (~ In k (names opts)) as NK by (apply NO; destruct I as [I|[I|[]]]; injection I as <- <-; simpl; tauto).
    destruct l as [|p l].
    - pose proof (root_none _ _ _ _ _ RS NK D) as HP. exists []. rewrite (no_points w _ k x E HP). split; [reflexivity|]. split; [intros q; reflexivity|auto].
    - destruct (root_value _ _ _ _ _ _ _ RS NK D) as (v' & GP & RBK). destruct v'; try contradiction. destruct RBK as (SP & _).
      exists l0. unfold get_points. rewrite GP. split; [reflexivity|]. split; [exact SP|discriminate]. }
  destruct (PTS (str "AB") ab ltac:(simpl; tauto)) as (ab' & GB & SB & NB).
  destruct (PTS (str "AW") aw ltac:(simpl; tauto)) as (aw' & GW & SW & NW).
  assert (get_setup_stones w (g_root g) = Ok (ab', aw', [])) as GS.
  { unfold get_setup_stones. rewrite GB, GW. cbn [bind]. rewrite (no_points w _ (str "AE") x E) by (apply NP0; simpl; tauto). reflexivity. }
  destruct (reachable_good _ _ RB) as [(WF & L & _) Sd].
  assert (same_on (st_size st) (view (st_base st)) (setup_position empty_position ab' aw' [])) as SO.
  { intros p O. unfold setup_position. change (mem_point p []) with false. cbv iota. destruct SAB as (_ & IB). destruct SAW as (_ & IW). rewrite Sd in IB, IW.
    rewrite (mem_point_same p aw' aw), (mem_point_same p ab' ab) by (intros q; symmetry; auto).
    destruct (mem_point p aw) eqn:M1; [apply mem_point_In, IW in M1; apply M1|].
    destruct (mem_point p ab) eqn:M2; [apply mem_point_In, IB in M2; apply M2|].
    destruct (view (st_base st) p) as [[]|] eqn:V; auto; exfalso.
    - pose proof (proj2 (IB p) (conj O V)) as V1. apply mem_point_In in V1. congruence.
    - pose proof (proj2 (IW p) (conj O V)) as V1. apply mem_point_In in V1. congruence. }
  exists ab', aw', []. split; [|exact SO].
  assert (moves_of w nodes (moves_made st) /\ Forall (no_setup w) nodes) as (MO & NS).
  { unfold moves_made. unfold history_moves in SN. clear -SN NP'. revert nodes SN NP'. induction (st_history st) as [|h hs IH]; intros nodes SN NP'; cbn [map] in *; inversion SN as [|? n ? ns S SN']; subst.
    - split; constructor.
    - inversion NP' as [|? ? (x & E & PR) NP2]; subst. destruct (IH _ SN' NP2) as (A & B). split.
      + apply mo_move; [|exact A]. eapply shows_move; [exact E|exact PR|exact S|destruct (h_colour h), (h_move h); reflexivity|destruct (h_colour h); reflexivity].
      + constructor; [|exact B]. intros k I. eapply shows_none; [exact S| |].
        * destruct I as [<-|[<-|[<-|[]]]]; discriminate.
        * destruct I as [<-|[<-|[<-|[]]]], (h_colour h); reflexivity. }
  assert (get_move w (g_root g) = Ok None) as GM.
  { apply get_move_none. unfold get_raw_move. rewrite E.
    rewrite (no_prop_key w _ (str "B") x E) by (apply NP0; simpl; tauto).
    rewrite (no_prop_key w _ (str "W") x E) by (apply NP0; simpl; tauto). reflexivity. }
  split; [exact GS|]. split.
  { rewrite SZ. eapply BoardMainProofs.legal_ext; [exact SO|]. rewrite Sd in L. exact L. }
  split; [intros _; exact GM|]. unfold move_nodes. rewrite line_leftmost. cbn [tl].
  destruct (ab' ++ aw') as [|q r] eqn:EA; [|split; auto].
  apply app_eq_nil in EA as (-> & ->). split; [|apply mo_skip; auto]. constructor; [|exact NS].
  assert (ab = []) by (destruct ab as [|p l]; [reflexivity|]; exfalso; apply (SB p); left; reflexivity).
  assert (aw = []) by (destruct aw as [|p l]; [reflexivity|]; exfalso; apply (SW p); left; reflexivity).
  intros k I. destruct I as [<-|[<-|[<-|[]]]]; [auto|auto|]. apply NP0. simpl. tauto.
Qed.
