(** Proofs for gomill/sgf_moves.py (C21). *)
From Verif Require Import Base Bytes PyStr Dict BoardModel BoardSpec BoardProofs BoardPlayProofs BoardMainProofs
  SgfGrammarModel SgfGrammarSpec SgfTreeConvModel CommonModel
  SgfPropsModel SgfPropsSpec SgfValueSpec SgfGrammarProofs SgfTreeConvProofs
  SgfPropsProofs SgfValueProofs SgfTypeErrorProofs SgfTreeModel SgfTreeSpec SgfTreeProofs SgfNodeProofs SgfGameProofs
  SgfTreeMainProofs SgfNavProofs SgfSaveProofs SgfMovesModel SgfMovesSpec.

Lemma no_setup_iff w n : has_setup_stones w n = false <-> no_setup w n.
Proof.
  unfold has_setup_stones, no_setup. split.
  - intros H k I. apply orb_false_iff in H. destruct H as [H1 H3]. apply orb_false_iff in H1. destruct H1 as [H1 H2].
    destruct I as [<-|[<-|[<-|[]]]]; auto.
  - intros H. rewrite !H by (simpl; auto). reflexivity.
Qed.

Lemma size_of_owner w n i g : owner_is w n i -> game_at w i = Some g -> size_of w n = g_size g.
Proof. intros (x & E & O) G. unfold size_of. rewrite E. unfold pres_of. rewrite O, G. reflexivity. Qed.

Lemma raw_move_err w n e : inv w -> (n < List.length (w_nodes w))%nat -> get_raw_move w n <> Err e.
Proof.
  intros I L. destruct (node_at_some _ _ L) as (x & E). unfold get_raw_move. rewrite E.
  pose proof (inv_props _ I _ _ E) as [_ P]. rewrite Forall_forall in P.
  destruct (dget (str "B") (t_props x)) as [[|v r]|] eqn:D; try discriminate.
  - apply dget_In in D. destruct (P _ D) as (_ & X & _). cbn in X. congruence.
  - destruct (dget (str "W") (t_props x)) as [[|v r]|] eqn:D2; try discriminate.
    apply dget_In in D2. destruct (P _ D2) as (_ & X & _). cbn in X. congruence.
Qed.

Lemma get_move_none w n : get_move w n = Ok None <-> get_raw_move w n = Ok None.
Proof.
  unfold get_move. destruct (get_raw_move w n) as [[[c raw]|]|]; cbn [bind]; split; try congruence.
  destruct (interpret_go_point raw (size_of w n)); discriminate.
Qed.

Lemma collect_ok w size ns ms : Forall (fun n => size_of w n = size) ns ->
  (collect_moves w size ns = Ok ms <-> Forall (no_setup w) ns /\ moves_of w ns ms).
Proof.
  intros F. revert ms. induction F as [|n ns Sz F IH]; intros ms.
  - simpl. split; [intros H; injection H as <-; split; constructor|intros [_ M]; inversion M; auto].
  - cbn [collect_moves]. destruct (has_setup_stones w n) eqn:HS.
    + split; [discriminate|]. intros [N _]. inversion N as [|? ? N1 _]; subst. apply no_setup_iff in N1. congruence.
    + apply no_setup_iff in HS.
      assert (forall a b, moves_of w (n :: ns) b -> get_move w n = a ->
               match a with Ok None => moves_of w ns b | Ok (Some m) => exists r, b = m :: r /\ moves_of w ns r | Err _ => False end) as MI.
      { intros a b M <-. inversion M as [|? ? ? G M1|? ? ? ? G M1]; subst; rewrite G; eauto. }
      unfold get_move in MI. rewrite Sz in MI.
      destruct (get_raw_move w n) as [[[c raw]|]|e] eqn:GR; cbn [bind] in *.
      * destruct (interpret_go_point raw size) as [m|e] eqn:IG; cbn [bind] in *.
        -- destruct (collect_moves w size ns) as [l|e]; cbn [bind].
           ++ split.
              ** intros H. injection H as <-. destruct (proj1 (IH l) eq_refl) as [N M]. split; [constructor; auto|].
                 apply mo_move; auto. unfold get_move. rewrite GR. cbn [bind]. rewrite Sz, IG. reflexivity.
              ** intros [N M]. inversion N as [|? ? N1 N2]; subst. destruct (MI _ _ M eq_refl) as (r & -> & M1).
                 pose proof (proj2 (IH r) (conj N2 M1)) as X. injection X as <-. reflexivity.
           ++ split; [discriminate|]. intros [N M]. inversion N as [|? ? N1 N2]; subst.
              destruct (MI _ _ M eq_refl) as (r & -> & M1). pose proof (proj2 (IH r) (conj N2 M1)). discriminate.
        -- split; [discriminate|]. intros [N M]. destruct (MI _ _ M eq_refl).
      * rewrite IH. split.
        -- intros [N M]. split; [constructor; auto|]. apply mo_skip; auto. apply get_move_none; auto.
        -- intros [N M]. inversion N; subst. split; auto. apply (MI _ _ M eq_refl).
      * split; [discriminate|]. intros [N M]. destruct (MI _ _ M eq_refl).
Qed.

Lemma collect_err w size ns e : inv w -> Forall (fun n => (n < List.length (w_nodes w))%nat) ns ->
  collect_moves w size ns = Err e -> e = ValueError.
Proof.
  intros I F. induction F as [|n ns L F IH]; [discriminate|]. cbn [collect_moves].
  destruct (has_setup_stones w n); [congruence|].
  destruct (get_raw_move w n) as [[[c raw]|]|e'] eqn:GR; cbn [bind].
  - pose proof (interpret_go_point_spec raw size) as S. destruct (interpret_go_point raw size) as [m|e2]; cbn [bind].
    + destruct (collect_moves w size ns); cbn [bind]; [discriminate|auto].
    + destruct S as [-> _]. congruence.
  - auto.
  - exfalso. eapply raw_move_err; eauto.
Qed.

Lemma interpret_points_board t raw x l : interpret_as_type t raw x = Ok (VPoints l) ->
  Forall (on_board (c_size x)) l.
Proof.
  unfold interpret_as_type. destruct raw as [|v more]; [discriminate|]. destruct (uses_list t) eqn:U.
  - intros H. destruct t; try discriminate U; cbn [interpret_list] in H;
    try (destruct (interpret_point_list _ x) as [l0|e] eqn:E; [|discriminate]; injection H as <-;
         match type of E with interpret_point_list ?r x = _ => pose proof (C17_interpret_proof r x) as C; rewrite E in C end;
         destruct C as (_ & _ & C); apply Forall_forall; exact C);
    match type of H with (do _ <- ?y; _) = _ => destruct y; discriminate end.
  - destruct more; [|discriminate]. destruct t; try discriminate U; cbn [interpret_single]; intros H;
    repeat match type of H with context[match ?x with _ => _ end] => destruct x end; try discriminate;
    repeat match type of H with (do _ <- ?x; _) = _ => destruct x; cbn [bind] in H end;
    repeat match type of H with context[match ?x with _ => _ end] => destruct x end; try discriminate.
Qed.

Lemma get_points_board w n k l : get_points w n k = Ok l -> Forall (on_board (size_of w n)) l.
Proof.
  unfold get_points, get_prop. destruct (get_raw_list w n k) as [raw|e]; cbn [bind].
  - unfold size_of. destruct (node_at w n) as [x|]; [|discriminate]. destruct (pres_of w x) as [pr|]; [|discriminate].
    unfold interpret. destruct (effective_type pr k) as [t|[]]; cbn [bind]; try discriminate.
    + destruct (interpret_as_type t raw (pr_context pr)) as [v|e] eqn:E.
      * destruct v; try discriminate. intros H. injection H as <-. eapply interpret_points_board; eauto.
      * destruct e; try discriminate. intros H. injection H as <-. constructor.
    + intros H. injection H as <-. constructor.
  - destruct e; try discriminate. intros H. injection H as <-. constructor.
Qed.

Lemma get_setup_board w n ab aw ae : get_setup_stones w n = Ok (ab, aw, ae) ->
  Forall (on_board (size_of w n)) ab /\ Forall (on_board (size_of w n)) aw /\ Forall (on_board (size_of w n)) ae.
Proof.
  unfold get_setup_stones. destruct (get_points w n (str "AB")) as [b|] eqn:E1; cbn [bind]; [|discriminate].
  destruct (get_points w n (str "AW")) as [wh|] eqn:E2; cbn [bind]; [|discriminate].
  destruct (get_points w n (str "AE")) as [e|] eqn:E3; cbn [bind]; [|discriminate].
  intros H. injection H as <- <- <-. split; [|split]; eapply get_points_board; eauto.
Qed.

Lemma get_points_err w n k e : type_of w n k PT_point_list -> get_points w n k = Err e -> e = ValueError.
Proof.
  intros (x & pr & E & P & T). unfold get_points, get_prop, get_raw_list. rewrite E, P.
  destruct (dget k (t_props x)) as [raw|]; cbn [bind]; [|discriminate].
  unfold interpret. rewrite T. cbn [bind].
  destruct (interpret_as_type PT_point_list raw (pr_context pr)) as [v|e'] eqn:I.
  - unfold interpret_as_type in I. destruct raw as [|v0 m]; [discriminate|]. cbn [uses_list interpret_list] in I.
    destruct (interpret_point_list _ _); [|discriminate]. injection I as <-. discriminate.
  - destruct (C46_proof _ _ _ _ I) as [-> |(-> & [X|[X|X]] & _)]; try discriminate. congruence.
Qed.

Lemma get_setup_err w n e : (forall k, In k key3 -> type_of w n k PT_point_list) ->
  get_setup_stones w n = Err e -> e = ValueError.
Proof.
  intros T. unfold get_setup_stones.
  destruct (get_points w n (str "AB")) as [b|e1] eqn:E1; cbn [bind];
    [|intros H; injection H as <-; eapply get_points_err; [|exact E1]; apply T; simpl; auto].
  destruct (get_points w n (str "AW")) as [wh|e1] eqn:E2; cbn [bind];
    [|intros H; injection H as <-; eapply get_points_err; [|exact E2]; apply T; simpl; auto].
  destruct (get_points w n (str "AE")) as [em|e1] eqn:E3; cbn [bind];
    [|intros H; injection H as <-; eapply get_points_err; [|exact E3]; apply T; simpl; auto].
  discriminate.
Qed.

(** ** get_setup_and_moves *)

Section SetupMoves.
Context (w : world) (i : nat) (g : game) (t : rose).
Hypothesis R : reachable_world w.
Hypothesis G : game_at w i = Some g.
Hypothesis T : tree_of w (g_root g) t.

Lemma leftmost_labels : forall u n, In n (leftmost u) -> In n (labels u).
Proof using.
  induction u as [m ks IH] using rose_ind2. intros n. cbn [leftmost labels]. intros [->|H]; [left; auto|right].
  destruct ks as [|k ks]; [contradiction|]. cbn [flat_map]. apply in_app_iff. left. inversion IH; subst. auto.
Qed.

Lemma nodes_sizes : Forall (fun n => size_of w n = g_size g /\ (n < List.length (w_nodes w))%nat) (leftmost t).
Proof using R G T.
  apply Forall_forall. intros n H. apply leftmost_labels in H.
  destruct (C19_tree_proof _ _ _ R G) as (t' & T' & _ & _ & _ & O & _).
  rewrite (tree_of_fun _ _ _ _ T T') in H. specialize (O _ H). split.
  - eapply size_of_owner; eauto.
  - destruct O as (x & E & _). eapply node_at_lt; eauto.
Qed.

Lemma main_line_tree : main_line (List.length (w_nodes w)) w (g_root g) = Ok (leftmost t).
Proof using R G T.
  destruct (C19_main_line_proof _ _ _ R G) as (t' & T' & E). rewrite (tree_of_fun _ _ _ _ T T'). exact E.
Qed.

Lemma root_head : exists l, leftmost t = g_root g :: l.
Proof using T. inversion T; subst. cbn [leftmost]. eauto. Qed.

Lemma root_valid : size_of w (g_root g) = g_size g /\ (g_root g < List.length (w_nodes w))%nat.
Proof using R G T. pose proof nodes_sizes as F. destruct root_head as (rest & E). rewrite E in F. inversion F as [|? ? Fh Ft]. exact Fh. Qed.

Lemma move_nodes_valid ab aw : Forall (fun n => size_of w n = g_size g /\ (n < List.length (w_nodes w))%nat) (move_nodes t ab aw).
Proof using R G T.
  pose proof nodes_sizes as F. unfold move_nodes. destruct (ab ++ aw); auto.
  destruct root_head as (rest & E). rewrite E in *. inversion F as [|? ? Fh Ft]. exact Ft.
Qed.

Definition collected (ab aw : list point) : res (list (colour * gmove)) :=
  collect_moves w (g_size g) (move_nodes t ab aw).

Lemma collected_ok ab aw ms : collected ab aw = Ok ms <->
  Forall (no_setup w) (move_nodes t ab aw) /\ moves_of w (move_nodes t ab aw) ms.
Proof using R G T.
  apply collect_ok. eapply Forall_impl; [|apply move_nodes_valid]; cbv beta; tauto.
Qed.

Lemma collected_err ab aw e : collected ab aw = Err e -> e = ValueError.
Proof using R G T.
  apply collect_err; [apply reachable_inv; auto|]. eapply Forall_impl; [|apply move_nodes_valid]; cbv beta; tauto.
Qed.

(** What [setup_then_moves] does on an empty board. *)
Lemma setup_then_moves_spec (pick : nat -> nat) b : reachable (g_size g) b -> is_empty b = true ->
  exists b' r, setup_then_moves pick w g b = (b', r) /\ reachable (g_size g) b' /\ match r with
    | Ok ms => exists ab aw ae, readable w g t ab aw ae ms /\ same_on (g_size g) (view b') (setup_position empty_position ab aw ae)
    | Err e => (forall ab aw ae ms, ~ readable w g t ab aw ae ms) /\ ((forall k, In k key3 -> type_of w (g_root g) k PT_point_list) -> e = ValueError)
    end.
Proof using R G T.
  intros Rb Em. unfold setup_then_moves.
  destruct (get_setup_stones w (g_root g)) as [[[ab aw] ae]|e] eqn:GS.
  2:{ exists b, (Err e). split; auto. split; auto. split.
      - intros ab aw ae ms (X & _). congruence.
      - intros Ty. eapply get_setup_err; eauto. }
  rewrite main_line_tree. destruct (C02_proof _ _ Rb) as (Sd & _ & Em2). pose proof (proj1 Em2 Em) as Ev.
  assert (on_b : forall p, In p (ab ++ aw ++ ae) -> on_board (g_size g) p).
  { destruct (get_setup_board _ _ _ _ _ GS) as (F1 & F2 & F3).
    assert (size_of w (g_root g) = g_size g) as Sz.
    { apply root_valid. }
    rewrite Sz in *. rewrite Forall_forall in *. intros p H. rewrite !in_app_iff in H. destruct H as [H|[H|H]]; auto. }
  assert (uniq : forall ab' aw' ae' ms, readable w g t ab' aw' ae' ms -> ab' = ab /\ aw' = aw /\ ae' = ae).
  { intros ab' aw' ae' ms (X & _). rewrite GS in X. injection X as -> -> ->. auto. }
  assert (same_on (g_size g) (setup_position (view b) ab aw ae) (setup_position empty_position ab aw ae)) as SO.
  { intros p Hp. unfold setup_position. rewrite (Ev p Hp). reflexivity. }
  destruct (nonempty ab || nonempty aw) eqn:NE.
  - assert (ab ++ aw <> []) as NE2 by (destruct ab; [destruct aw; discriminate|discriminate]).
    assert (move_nodes t ab aw = tl (leftmost t)) as MN.
    { unfold move_nodes. destruct (ab ++ aw); congruence. }
    destruct (C05_proof pick _ b ab aw ae Rb on_b) as (b1 & f & AE & CL & LG).
    assert (reachable (g_size g) b1) as Rb1.
    { replace b1 with (apply_op pick b (OpSetup ab aw ae)) by (simpl; rewrite AE; reflexivity). apply reach_op; auto. }
    rewrite AE. destruct f.
    + assert (legal (g_size g) (setup_position (view b) ab aw ae)) as L1 by tauto.
      assert (legal (g_size g) (setup_position empty_position ab aw ae)) as L2 by (eapply legal_ext; eauto).
      assert (same_on (g_size g) (view b1) (setup_position empty_position ab aw ae)) as SV.
      { intros p Hp. destruct (CL p Hp) as [_ C2]. rewrite <- (SO p Hp). apply C2. intros [N1 N2]. apply N2. apply L1; auto. }
      destruct (get_raw_move w (g_root g)) as [[m|]|e] eqn:GR.
      * exists b1, (Err ValueError). split; auto. split; auto. split; auto.
        intros ab' aw' ae' ms RD. destruct (uniq _ _ _ _ RD) as (-> & -> & ->). destruct RD as (_ & _ & RM & _).
        apply RM in NE2. apply get_move_none in NE2. congruence.
      * exists b1, (collect_moves w (g_size g) (tl (leftmost t))). split; auto. split; auto.
        rewrite <- MN. fold (collected ab aw). destruct (collected ab aw) as [ms|e] eqn:CO.
        -- exists ab, aw, ae. split; auto. apply collected_ok in CO.
           split; auto. split; auto. split; auto. intros _. apply get_move_none; auto.
        -- split; [|intros _; eapply collected_err; eauto].
           intros ab' aw' ae' ms RD. destruct (uniq _ _ _ _ RD) as (-> & -> & ->). destruct RD as (_ & _ & _ & RM).
           apply collected_ok in RM. congruence.
      * exfalso. eapply raw_move_err; [apply reachable_inv; eauto| |exact GR].
        apply root_valid.
    + exists b1, (Err ValueError). split; auto. split; auto. split; auto.
      intros ab' aw' ae' ms RD. destruct (uniq _ _ _ _ RD) as (-> & -> & ->). destruct RD as (_ & RL & _).
      assert (legal (g_size g) (setup_position (view b) ab aw ae)) as L1.
      { eapply legal_ext; [|exact RL]. intros p Hp. symmetry. apply SO; auto. }
      apply LG in L1. discriminate.
  - assert (ab = [] /\ aw = []) as [-> ->] by (destruct ab, aw; try discriminate; auto).
    exists b, (collect_moves w (g_size g) (leftmost t)). split; auto. split; auto.
    change (leftmost t) with (move_nodes t [] []). fold (collected [] []).
    assert (same_on (g_size g) (setup_position empty_position [] [] ae) empty_position) as SE.
    { intros p Hp. unfold setup_position. destruct (mem_point p ae); reflexivity. }
    destruct (collected [] []) as [ms|e] eqn:CO.
    + exists [], [], ae. split.
      * apply collected_ok in CO. split; auto. split; [|split; auto].
        -- intros p Hp NN. exfalso. apply NN. rewrite (SE p Hp). reflexivity.
        -- intros NE2; exfalso; apply NE2; reflexivity.
      * intros p Hp. rewrite (SE p Hp). apply Ev. auto.
    + split; [|intros _; eapply collected_err; eauto].
      intros ab' aw' ae' ms RD. destruct (uniq _ _ _ _ RD) as (-> & -> & ->). destruct RD as (_ & _ & _ & RM).
      apply collected_ok in RM. congruence.
Qed.

End SetupMoves.

Lemma C21_read_proof pick w i g t sup : reachable_world w -> game_at w i = Some g -> tree_of w (g_root g) t ->
  (forall b, sup = Some b -> exists s, reachable s b) -> usable (g_size g) sup ->
  (forall k, In k [str "AB"; str "AW"; str "AE"] -> type_of w (g_root g) k PT_point_list) ->
  exists b r, get_setup_and_moves pick w g sup = (Some b, r) /\ reachable (g_size g) b /\
    match r with
    | Ok ms => exists ab aw ae, readable w g t ab aw ae ms /\
                 same_on (g_size g) (view b) (setup_position empty_position ab aw ae)
    | Err e => e = ValueError /\ forall ab aw ae ms, ~ readable w g t ab aw ae ms
    end.
Proof.
  intros R G T RB U Ty.
  assert (exists b0, reachable (g_size g) b0 /\ is_empty b0 = true /\
            get_setup_and_moves pick w g sup = (let (b', r) := setup_then_moves pick w g b0 in (Some b', r))) as (b0 & R0 & E0 & ->).
  { destruct sup as [b|]; simpl in U.
    - destruct U as [Sd Em]. destruct (RB b eq_refl) as (s & Rs). destruct (C02_proof _ _ Rs) as (Ss & _).
      exists b. rewrite <- Sd, Ss. split; auto. split; auto. unfold get_setup_and_moves.
      rewrite Em, <- Sd, Z.eqb_refl. reflexivity.
    - assert (exists b0, new_board (g_size g) = Ok b0) as (b0 & NB).
      { unfold new_board. destruct (Z.ltb_spec (g_size g) 2); [lia|]. eauto. }
      exists b0. assert (reachable (g_size g) b0) as R0 by (apply reach_new; auto). split; auto. split.
      + destruct (new_board_good _ _ NB) as (_ & _ & V). destruct (C02_proof _ _ R0) as (_ & _ & H). apply H. auto.
      + unfold get_setup_and_moves. rewrite NB. reflexivity. }
  destruct (setup_then_moves_spec w i g t R G T pick b0 R0 E0) as (b' & r & -> & Rb & M).
  exists b', r. split; auto. split; auto. destruct r; auto. destruct M; auto.
Qed.

(** The relation [readable] is functional, so a readable game is read as what it is. *)
Lemma moves_of_fun w ns ms : moves_of w ns ms -> forall ms', moves_of w ns ms' -> ms = ms'.
Proof.
  induction 1 as [|n ns ms E M IH|n ns m ms E M IH]; intros ms' M'; inversion M'; subst; auto; try congruence.
  f_equal; [congruence|auto].
Qed.

Lemma readable_fun w g t ab aw ae ms ab' aw' ae' ms' :
  readable w g t ab aw ae ms -> readable w g t ab' aw' ae' ms' -> ab = ab' /\ aw = aw' /\ ae = ae' /\ ms = ms'.
Proof.
  intros (A1 & _ & _ & _ & A2) (B1 & _ & _ & _ & B2). rewrite A1 in B1. injection B1 as <- <- <-.
  split; auto. split; auto. split; auto. eapply moves_of_fun; eauto.
Qed.

Lemma C21_unusable_proof pick w g sup : (forall b, sup = Some b -> exists s, reachable s b) ->
  ~ usable (g_size g) sup -> get_setup_and_moves pick w g sup = (sup, Err ValueError).
Proof.
  intros RB U. destruct sup as [b|]; unfold get_setup_and_moves; simpl in U.
  - destruct (Z.eqb_spec (side b) (g_size g)); [|reflexivity]. destruct (is_empty b) eqn:E; [tauto|reflexivity].
  - unfold new_board. destruct (Z.ltb_spec (g_size g) 2); [reflexivity|lia].
Qed.

(** ** Writing moves *)

Lemma last_node_ok w n t : tree_of w n t -> forall fuel, (List.length (leftmost t) <= S fuel)%nat ->
  exists l, leftmost t = l ++ [last (leftmost t) n] /\ last_node fuel w n = Ok (last (leftmost t) n) /\
    kids_are w (last (leftmost t) n) [].
Proof.
  intros T. induction T as [n x ts E F IH] using tree_of_ind2. intros fuel L.
  destruct ts as [|t0 ts].
  - inversion F as [Ek|]; subst. cbn [leftmost last]. exists []. split; auto.
    split; [destruct fuel; cbn [last_node]; rewrite E, <- Ek; reflexivity|exists x; auto].
  - inversion F as [|c ? ks ? Tc Fk Ek]; subst. rewrite <- Ek in IH. inversion IH as [|? ? ? ? Hc _]; subst.
    cbn [leftmost] in *. destruct fuel as [|f].
    { exfalso. destruct t0; cbn [leftmost List.length] in L. lia. }
    destruct (Hc f) as (l & El & LN & K); [cbn [List.length] in L; lia|].
    assert (last (n :: leftmost t0) n = last (leftmost t0) c) as EL.
    { rewrite El. change (n :: l ++ [last (leftmost t0) c]) with ((n :: l) ++ [last (leftmost t0) c]).
      rewrite !last_last. reflexivity. }
    rewrite EL. exists (n :: l). split; [cbn [app]; congruence|]. split; auto.
    cbn [last_node]. rewrite E, <- Ek. exact LN.
Qed.

Lemma NoDup_left {A} (a b : list A) : NoDup (a ++ b) -> NoDup a.
Proof.
  induction a as [|x a IH]; simpl; intros H; [constructor|]. inversion H as [|? ? N D]; subst.
  constructor; auto. intros X. apply N. apply in_app_iff. auto.
Qed.

Lemma inserted_leftmost s : forall t t' n l, inserted n None s t t' -> leftmost t = l ++ [n] ->
  NoDup (labels t) -> leftmost t' = leftmost t ++ leftmost s.
Proof.
  induction t as [m ks IH] using rose_ind2. intros t' n l I E ND. cbn [leftmost labels] in *.
  inversion I as [ts ts' us F IA|? ts ts' N F]; subst.
  - destruct ks as [|k ks].
    + inversion F; subst. destruct IA as (l1 & l2 & E1 & -> & X & _). specialize (X eq_refl). subst l2.
      destruct l1; [|discriminate]. cbn [app leftmost]. reflexivity.
    + exfalso. inversion ND as [|? ? NI _]; subst. apply NI. cbn [flat_map]. apply in_app_iff. left.
      apply leftmost_labels. destruct l as [|a l]; [destruct k; discriminate|]. injection E as <- E. rewrite E.
      apply in_app_iff. simpl; auto.
  - destruct ks as [|k ks].
    + destruct l as [|a l]; [injection E as E; congruence|destruct l; discriminate].
    + inversion F as [|? k' ? ks' Fk Fks]; subst. inversion IH as [|? ? IHk _]; subst. cbn [leftmost].
      destruct l as [|a l]; [injection E as E; congruence|]. injection E as <- E.
      rewrite (IHk k' n l Fk E); auto. inversion ND as [|? ? _ ND2]; subst. cbn [flat_map] in ND2.
      eapply NoDup_left; eauto.
Qed.

(** Reading a node does not depend on the rest of the world. *)
Definition same_at (w w' : world) (n : nat) : Prop :=
  (forall k, get_raw_list w' n k = get_raw_list w n k) /\ (forall g, owner_is w n g -> owner_is w' n g) /\
  w_games w' = w_games w.

Lemma same_at_props w w' n x : node_at w n = Some x -> same_at w w' n ->
  exists x', node_at w' n = Some x' /\ (forall k, dget k (t_props x') = dget k (t_props x)) /\ t_owner x' = t_owner x.
Proof.
  intros E (S1 & S2 & _). destruct (S2 (t_owner x)) as (x' & E' & O); [exists x; auto|].
  exists x'. split; auto. split; auto. intros k. specialize (S1 k). unfold get_raw_list in S1. rewrite E, E' in S1.
  destruct (dget k (t_props x)), (dget k (t_props x')); congruence.
Qed.

Lemma same_at_reads w w' n : (n < List.length (w_nodes w))%nat -> same_at w w' n ->
  get_move w' n = get_move w n /\ (forall k, has_property w' n k = has_property w n k) /\
  get_setup_stones w' n = get_setup_stones w n.
Proof.
  intros L S. destruct (node_at_some _ _ L) as (x & E). destruct (same_at_props _ _ _ _ E S) as (x' & E' & D & O).
  destruct S as (S1 & _ & S3).
  assert (pres_of w' x' = pres_of w x) as P. { unfold pres_of, game_at. rewrite O, S3. reflexivity. }
  split; [|split].
  - unfold get_move, get_raw_move, size_of. rewrite E, E', !D, P. reflexivity.
  - intros k. unfold has_property. rewrite E, E'. unfold dmem. rewrite D. reflexivity.
  - assert (forall k, get_points w' n k = get_points w n k) as GP.
    { intros k. unfold get_points, get_prop. rewrite S1, E, E', P. reflexivity. }
    unfold get_setup_stones. rewrite !GP. reflexivity.
Qed.

Lemma extend_ok w i g t : reachable_world w -> game_at w i = Some g -> tree_of w (g_root g) t ->
  let c := List.length (w_nodes w) in
  exists w' t', extend_main_sequence w g = (w', Ok tt) /\ reachable_world w' /\
    w_games w' = w_games w /\ tree_of w' (g_root g) t' /\ leftmost t' = leftmost t ++ [c] /\
    owner_is w' c i /\ data_of w' c (NT [] []) /\ (forall n, (n < c)%nat -> same_at w w' n).
Proof.
  intros R G T c. pose proof (reachable_inv _ R) as IV. pose proof (inv_wf _ IV) as W.
  pose proof (labels_length _ _ _ W T) as LL. pose proof (leftmost_length t) as LM.
  destruct (last_node_ok _ _ _ T (List.length (w_nodes w)) ltac:(lia)) as (l & El & LN & K).
  set (p := last (leftmost t) (g_root g)) in *.
  assert (p < List.length (w_nodes w))%nat as Lp by (destruct K as (x & E & _); eapply node_at_lt; eauto).
  destruct (C19_new_child_proof w p None R Lp) as (w' & NC & PI & TC & DC & OC & TI & WG & FR).
  destruct (TI _ _ T) as (t' & I & T').
  exists w', t'. unfold extend_main_sequence. rewrite LN. split; auto. split.
  { replace w' with (fst (exec w (NewChild p None))) by (cbn [exec]; rewrite NC; reflexivity).
    constructor; auto. split; repeat constructor; auto. }
  split; auto. split; auto. split.
  { rewrite (inserted_leftmost _ _ _ _ _ I El (labels_nodup _ _ _ W T)). reflexivity. }
  split.
  { apply OC. destruct (C19_tree_proof _ _ _ R G) as (t2 & T2 & _ & _ & _ & O & _). apply O.
    rewrite (tree_of_fun _ _ _ _ T2 T). apply leftmost_labels. rewrite El. apply in_app_iff. right. left. reflexivity. }
  split; auto. intros n Ln. destruct (node_at_some _ _ Ln) as (x & E). destruct (FR _ _ E) as (x' & E' & P1 & P2 & P3).
  split; [|split; auto].
  - intros k. unfold get_raw_list. rewrite E, E', P1. reflexivity.
  - intros gg (y & Ey & O). rewrite E in Ey. injection Ey as <-. exists x'. split; auto. congruence.
Qed.

Lemma only_changes_same_at w n ks w' m : only_changes w n ks w' -> m <> n -> same_at w w' m.
Proof.
  intros (A & _ & _ & O & GG) N. split; [intros k; apply A; auto|]. split; auto. intros g. apply O.
Qed.

Lemma same_at_trans w w' w'' n : same_at w w' n -> same_at w' w'' n -> same_at w w'' n.
Proof.
  intros (A1 & A2 & A3) (B1 & B2 & B3). split; [intros k; rewrite B1, A1; auto|]. split; auto. congruence.
Qed.

Lemma same_at_refl w n : same_at w w n.
Proof. split; auto. Qed.

Lemma moves_of_app w a b ms ms' : moves_of w a ms -> moves_of w b ms' -> moves_of w (a ++ b) (ms ++ ms').
Proof. intros M N. induction M; simpl; auto; [apply mo_skip|apply mo_move]; auto. Qed.

Lemma moves_of_frame w w' ns ms : Forall (fun n => (n < List.length (w_nodes w))%nat /\ same_at w w' n) ns ->
  moves_of w ns ms -> moves_of w' ns ms.
Proof.
  intros F M. induction M as [|n ns ms E M IH|n ns m ms E M IH]; inversion F as [|? ? (L & S) F2]; subst; constructor; auto;
  destruct (same_at_reads _ _ _ L S) as (GM & _); congruence.
Qed.

(** [record_moves] appends the moves to the main line. *)
Lemma record_ok g i size e : forall ms w t, reachable_world w -> game_at w i = Some g ->
  g_pres g = new_presenter size e -> 1 <= size <= 25 -> tree_of w (g_root g) t ->
  Forall (fun cm => forall p, snd cm = Some p -> on_board size p) ms ->
  exists w' t' added, record_moves w g ms = (w', Ok tt) /\ reachable_world w' /\ game_at w' i = Some g /\
    tree_of w' (g_root g) t' /\ leftmost t' = leftmost t ++ added /\
    Forall (no_setup w') added /\ moves_of w' added ms /\
    (forall n, (n < List.length (w_nodes w))%nat -> same_at w w' n) /\
    (List.length (w_nodes w) <= List.length (w_nodes w'))%nat /\
    Forall (fun n => (List.length (w_nodes w) <= n < List.length (w_nodes w'))%nat) added.
Proof.
  induction ms as [|[c m] ms IH]; intros w t R G Pr Sz T OK; cbn [record_moves].
  - exists w, t, []. rewrite app_nil_r. split; auto. split; auto. split; auto. split; auto. split; auto.
    split; [constructor|]. split; [constructor|]. split; [intros; apply same_at_refl|]. split; [lia|constructor].
  - inversion OK as [|? ? OK1 OK2]; subst. cbn [fst snd] in OK1.
    destruct (extend_ok w i g t R G T) as (w1 & t1 & -> & R1 & G1 & T1 & L1 & O1 & D1 & S1). cbn [then_do].
    set (n := List.length (w_nodes w)) in *.
    destruct O1 as (x & Ex & Ox).
    assert (game_at w1 i = Some g) as Gi by (unfold game_at; rewrite G1; exact G).
    assert (pres_of w1 x = Some (g_pres g)) as Px by (unfold pres_of; rewrite Ox, Gi; reflexivity).
    destruct (C20_set_move_proof w1 n c m (mkCtx size e) R1) as (w2 & SM & OC & GM & OT).
    { exists x, (g_pres g). split; auto. split; auto. rewrite Pr. destruct c; reflexivity. }
    { exists x, (g_pres g). split; auto. split; auto. rewrite Pr. reflexivity. }
    { simpl. lia. }
    { simpl. auto. }
    assert (Ln1 : (n < List.length (w_nodes w1))%nat) by (eapply node_at_lt; eauto).
    assert (reachable_world w2 /\ List.length (w_nodes w2) = List.length (w_nodes w1)) as [R2 L2].
    { split.
      - replace w2 with (fst (exec w1 (SetMove n c m))) by (cbn [exec]; rewrite SM; reflexivity).
        constructor; auto. split; repeat constructor; auto.
      - pose proof (set_move_edits w1 n c m Ln1 (inv_wf _ (reachable_inv _ R1))) as ED. unfold edits in ED.
        rewrite SM in ED. apply (edited_length _ _ _ ED). }
    rewrite SM. cbn [then_do].
    assert (tree_of w2 (g_root g) t1) as T2 by (apply OC; auto).
    assert (game_at w2 i = Some g) as Gi2.
    { destruct OC as (_ & _ & _ & _ & GG). unfold game_at. rewrite GG. exact Gi. }
    assert (no_setup w2 n) as NS2.
    { intros k Hk. assert (get_raw_list w2 n k = Err KeyError) as GE.
      { destruct OC as (OC & _). rewrite OC.
        - inversion D1 as [? y ts Ey Fy]. unfold get_raw_list. rewrite Ey. replace (t_props y) with (@nil (bytes * list bytes)) by congruence. reflexivity.
        - right. intros [H|[H|[]]]; subst k; destruct Hk as [Hk|[Hk|[Hk|[]]]]; discriminate. }
      unfold has_property, dmem. unfold get_raw_list in GE. destruct (node_at w2 n) as [y|]; auto.
      destruct (dget k (t_props y)); [discriminate|reflexivity]. }
    destruct (IH w2 t1 R2 Gi2 Pr Sz T2 OK2) as (w' & t' & added & RE & R' & G' & T' & L' & N' & M' & S' & Len' & B').
    exists w', t', (n :: added). split; auto. split; auto. split; auto. split; auto.
    assert (same_at w2 w' n) as Sn by (apply S'; lia).
    assert (n < List.length (w_nodes w2))%nat as Ln2 by lia.
    destruct (same_at_reads _ _ _ Ln2 Sn) as (Q1 & Q2 & _).
    split; [rewrite L', L1, <- app_assoc; reflexivity|]. split.
    { constructor; auto. intros k Hk. rewrite Q2. auto. }
    split; [apply mo_move; [rewrite Q1; exact GM|auto]|]. split.
    { intros k Hk. eapply same_at_trans; [apply S1; auto|]. eapply same_at_trans; [|apply S'; lia].
      eapply only_changes_same_at; eauto. lia. }
    split; [lia|]. constructor; [lia|]. eapply Forall_impl; [|exact B']. cbv beta. intros a Ha. lia.
Qed.

(** Writing moves into a new game and reading them back. *)
Lemma C21_write_read_proof pick w size e ms : reachable_world w -> 2 <= size <= 25 ->
  Forall (fun cm => forall p, snd cm = Some p -> on_board size p) ms ->
  exists w1 g w2 b, new_game w size e = (w1, Ok tt) /\ game_at w1 (List.length (w_games w)) = Some g /\
    record_moves w1 g ms = (w2, Ok tt) /\
    get_setup_and_moves pick w2 g None = (Some b, Ok ms) /\ (forall p, on_board size p -> view b p = None).
Proof.
  intros RW Sz OK. rewrite (new_game_eq w size e) by lia.
  set (props := new_root_props size e). set (w1 := alloc_game w size e props).
  set (i := List.length (w_games w)). set (r := List.length (w_nodes w)).
  set (g := mkGame r (new_presenter size e)).
  assert (reachable_world w1) as R1.
  { replace w1 with (fst (exec w (NewGame size e))) by (cbn [exec]; rewrite new_game_eq by lia; reflexivity).
    constructor; auto. split; constructor. }
  assert (game_at w1 i = Some g) as G1. { unfold w1. rewrite alloc_game_at. unfold i. rewrite Nat.eqb_refl. reflexivity. }
  assert (node_at w1 r = Some (mkT i None [] props)) as E1. { unfold w1. rewrite alloc_at. unfold r. rewrite Nat.eqb_refl. reflexivity. }
  assert (tree_of w1 r (R r [])) as T1. { econstructor; [exact E1|constructor]. }
  destruct (record_ok g i size e ms w1 (R r []) R1 G1 eq_refl ltac:(lia) T1 OK)
    as (w2 & t2 & added & RE & R2 & G2 & T2 & L2 & N2 & M2 & S2 & _ & _).
  assert (Lr : (r < List.length (w_nodes w1))%nat) by (eapply node_at_lt; eauto).
  destruct (same_at_reads _ _ _ Lr (S2 r Lr)) as (Q1 & Q2 & Q3).
  assert (get_setup_stones w2 r = Ok ([], [], [])) as GS.
  { rewrite Q3. unfold get_setup_stones, get_points, get_prop, get_raw_list. rewrite E1. reflexivity. }
  assert (get_move w2 r = Ok None) as GM.
  { rewrite Q1. unfold get_move, get_raw_move. rewrite E1. reflexivity. }
  assert (no_setup w2 r) as NS.
  { intros k Hk. rewrite Q2. unfold has_property. rewrite E1. destruct Hk as [<-|[<-|[<-|[]]]]; reflexivity. }
  assert (readable w2 g t2 [] [] [] ms) as RD.
  { split; [exact GS|]. split; [intros p _ H; exfalso; apply H; reflexivity|]. split; [intros _; exact GM|].
    unfold move_nodes. cbn [app]. rewrite L2. cbn [leftmost app]. split; [constructor; auto|]. apply mo_skip; auto. }
  destruct (C21_read_proof pick w2 i g t2 None R2 G2 T2) as (b & rr & GE & Rb & M).
  { discriminate. }
  { unfold usable, g_size, g. simpl. lia. }
  { intros k Hk. destruct (S2 r Lr) as (_ & O & WG). destruct (O i) as (x & Ex & Ox).
    - eexists. split; [exact E1|reflexivity].
    - exists x, (new_presenter size e). split; [exact Ex|]. split.
      + unfold pres_of. rewrite Ox, G2. reflexivity.
      + destruct Hk as [<-|[<-|[<-|[]]]]; reflexivity. }
  exists w1, g, w2, b. split; auto. split; auto. split; auto.
  destruct rr as [ms'|e'].
  - destruct M as (ab & aw & ae & RD' & SV). destruct (readable_fun _ _ _ _ _ _ _ _ _ _ _ RD RD') as (<- & <- & <- & <-).
    split; [exact GE|]. intros p Hp. rewrite (SV p Hp). reflexivity.
  - destruct M as [_ M]. destruct (M _ _ _ _ RD).
Qed.

(** ** Positions *)

Lemma stones_of_In c b p : In p (stones_of c b) <-> In (c, p) (list_occupied_points b).
Proof.
  unfold stones_of. rewrite in_flat_map. split.
  - intros ([c' q] & H & I). cbn [fst snd] in I. destruct (colour_eqb_spec c' c) as [->|]; [|contradiction].
    destruct I as [->|[]]. auto.
  - intros H. exists (c, p). split; auto. cbn [fst snd]. destruct (colour_eqb_spec c c); [left; auto|congruence].
Qed.

Lemma mem_point_In p l : mem_point p l = true <-> In p l.
Proof.
  unfold mem_point. rewrite existsb_exists. split.
  - intros (q & H & E). destruct (point_eqb_spec p q); [congruence|discriminate].
  - intros H. exists p. split; auto. destruct (point_eqb_spec p p); [auto|congruence].
Qed.

Lemma C21_initial_position_proof w i g b : reachable_world w -> game_at w i = Some g -> g_size g <= 25 ->
  reachable (g_size g) b ->
  (forall k, In k [str "AB"; str "AW"; str "AE"] -> type_of w (g_root g) k PT_point_list) ->
  exists w' ab aw, set_initial_position w g b = (w', Ok tt) /\
    only_changes w (g_root g) [str "AB"; str "AW"; str "AE"] w' /\
    get_setup_stones w' (g_root g) = Ok (ab, aw, []) /\
    same_on (g_size g) (setup_position empty_position ab aw []) (view b) /\
    legal (g_size g) (setup_position empty_position ab aw []).
Proof.
  intros R G Sz Rb Ty. destruct (reachable_good _ _ Rb) as [(W & L & F) Sd].
  destruct (list_occupied_correct b W) as [_ LO].
  assert (context_of w (g_root g) (pr_context (g_pres g))) as CX.
  { destruct (wf_game _ (inv_wf _ (reachable_inv _ R)) _ _ G) as (x & E & _ & O). exists x, (g_pres g).
    split; auto. split; auto. unfold pres_of. rewrite O, G. reflexivity. }
  assert (forall c, Forall (on_board (c_size (pr_context (g_pres g)))) (stones_of c b)) as OB.
  { intros c. apply Forall_forall. intros p H. apply stones_of_In, LO in H. rewrite Sd in H. apply H. }
  unfold set_initial_position.
  destruct (C20_set_setup_proof w (g_root g) (stones_of Black b) (stones_of White b) [] _ R
              (Ty _ (or_introl eq_refl)) (Ty _ (or_intror (or_introl eq_refl)))
              (Ty _ (or_intror (or_intror (or_introl eq_refl)))) CX Sz (OB Black) (OB White) ltac:(constructor))
    as (w' & b' & wh' & e' & SE & OC & GS & SB & SW & SE').
  assert (e' = []) as ->. { destruct e' as [|p l]; auto. exfalso. apply (proj2 (SE' p)). left; auto. }
  assert (same_on (g_size g) (setup_position empty_position b' wh' []) (view b)) as SO.
  { intros p Hp. unfold setup_position. change (mem_point p []) with false. cbv iota.
    assert (forall c, In p (stones_of c b) <-> view b p = Some c) as IV.
    { intros c. rewrite stones_of_In, LO, Sd. tauto. }
    destruct (mem_point p wh') eqn:M1; [apply mem_point_In, SW, IV in M1; auto|].
    destruct (mem_point p b') eqn:M2; [apply mem_point_In, SB, IV in M2; auto|].
    destruct (view b p) as [[]|] eqn:V; auto; exfalso.
    - pose proof (proj2 (IV Black) eq_refl) as V1. apply SB, mem_point_In in V1. congruence.
    - pose proof (proj2 (IV White) eq_refl) as V1. apply SW, mem_point_In in V1. congruence. }
  exists w', b', wh'. split; auto. split; auto. split; auto. split; auto.
  eapply legal_ext; [|rewrite Sd in L; exact L]. intros p Hp. symmetry. apply SO; auto.
Qed.

Lemma C21_first_player_proof w i g c ks n first mv : reachable_world w -> game_at w i = Some g -> g_size g <= 25 ->
  type_of w (g_root g) (str "PL") PT_colour ->
  ks = c :: n -> kids_are w (g_root g) ks -> get_move w c = Ok (Some (first, mv)) ->
  (other_setup w (g_root g) \/ first <> expected_first w (g_root g) ->
     exists w', indicate_first_player w g = (w', Ok tt) /\ only_changes w (g_root g) [str "PL"] w' /\
       get_prop w' (g_root g) (str "PL") = Ok (VColour first)) /\
  (~ (other_setup w (g_root g) \/ first <> expected_first w (g_root g)) ->
     indicate_first_player w g = (w, Ok tt)).
Proof.
  intros R G Sz Ty -> (x & E & K) GM. unfold indicate_first_player. rewrite E, K, GM.
  set (root := g_root g) in *. unfold other_setup, expected_first.
  set (b := if has_property w root (str "AW") then true else _).
  assert (b = true <-> (has_property w root (str "AW") = true \/
    has_property w root (str "AB") = true /\ has_property w root (str "HA") = false) \/
    first <> (if has_property w root (str "HA") then White else Black)) as BT.
  { unfold b. destruct (has_property w root (str "AW")), (has_property w root (str "AB")), (has_property w root (str "HA")), first;
    cbn; intuition congruence. }
  assert (context_of w root (pr_context (g_pres g))) as CX.
  { destruct (wf_game _ (inv_wf _ (reachable_inv _ R)) _ _ G) as (x' & E' & _ & O). exists x', (g_pres g).
    split; auto. split; auto. unfold pres_of. rewrite O, G. reflexivity. }
  split; intros H.
  - apply BT in H. rewrite H.
    assert (good_ident (str "PL")) as GI.
    { split; [discriminate|split; [cbn; lia|]]. repeat constructor; vm_compute; discriminate. }
    destruct (set_prop_ok w root (str "PL") (VColour first) PT_colour _ (reachable_inv _ R) GI ltac:(discriminate) Ty CX Sz I)
      as (w' & v' & A1 & A2 & A3 & A4).
    cbn [reads_back] in A4. subst v'. eauto.
  - destruct b; [|reflexivity]. exfalso. apply H. apply BT. auto.
Qed.
