(** Proofs about histories of commands (C37, C38). *)
From Verif Require Import Base Bytes PyStr Dict BoardModel BoardSpec BoardProofs BoardPlayProofs BoardMainProofs
  CommonModel CommonSpec CommonProofs SgfPropsModel SgfTreeModel SgfTreeSpec SgfTreeProofs SgfTreeMainProofs
  SgfMovesModel SgfMovesSpec SgfMovesProofs GtpModel GtpStateModel GtpStateSpec
  GtpStateProofs GtpLoadProofs GtpStateMainProofs GtpStateStepProofs.

Lemma boardsize_ok env st a rest n : weak_inv st -> interpret_int a = GOk n -> In n (st_sizes st) ->
  exists st', handle env Boardsize st (a :: rest) = (st', GOk None) /\ new_game_on n st st' /\ inv st'.
Proof.
  intros I E M. cbn [handle]. unfold handle_boardsize. cbn [first_arg]. rewrite E. cbn [get_or].
  apply existsb_eqb in M. rewrite M. apply existsb_eqb in M. cbn [negb].
  destruct (reset_then_ok (with_size st n) (GOk None)) as (st' & Er & N & I'); [split; [exact M|apply I]|].
  rewrite Er. exists st'. auto.
Qed.

(** ** Whatever has failed, a new game can be started *)

Definition sizes_kept (st : gstate) (o : handled) : Prop :=
  st_sizes (fst o) = st_sizes st /\ (st_size (fst o) = st_size st \/ In (st_size (fst o)) (st_sizes st)).

Lemma sizes_info st st' r : st_sizes st' = st_sizes st -> st_size st' = st_size st -> sizes_kept st (st', r).
Proof. intros A B. split; auto. Qed.

Lemma play_moves_sizes pick : forall l st ko pl,
  st_sizes (fst (play_moves pick st l ko pl)) = st_sizes st /\ st_size (fst (play_moves pick st l ko pl)) = st_size st.
Proof.
  induction l as [|h l IH]; intros st ko pl; cbn [play_moves]; [auto|]. destruct (h_move h) as [[row col]|].
  - destruct (play pick (st_board st) row col (h_colour h)) as [b [k|e]]; [exact (IH (with_board st b) _ _)|auto].
  - exact (IH (with_ko st None) _ _).
Qed.

Lemma reset_to_moves_sizes pick st l :
  st_sizes (fst (reset_to_moves pick st l)) = st_sizes st /\ st_size (fst (reset_to_moves pick st l)) = st_size st.
Proof.
  unfold reset_to_moves. destruct (copy (st_base st)) as [b|]; [|auto].
  pose proof (play_moves_sizes pick l (with_board st b) None None) as H.
  destruct (play_moves pick (with_board st b) l None None) as [st1 [[ko pl]|e]]; exact H.
Qed.

Lemma reset_then_sizes st r : st_sizes (fst (reset_then st r)) = st_sizes st /\ st_size (fst (reset_then st r)) = st_size st.
Proof. unfold reset_then, reset. destruct (new_board (st_size st)); auto. Qed.

Lemma get_or_kept {A} st0 st (r : gres A) k : sizes_kept st0 (st, GOk None) -> (forall a, sizes_kept st0 (k a)) -> sizes_kept st0 (get_or st r k).
Proof. intros H K. destruct r; cbn [get_or]; auto. Qed.

Ltac kept := first
  [ progress (cbn [get_or first_arg])
  | match goal with
    | |- sizes_kept ?st (reset_then ?s ?r) => destruct (reset_then_sizes s r) as [?A ?B]; split; [rewrite A; reflexivity|rewrite B; left; reflexivity]
    | |- sizes_kept _ (get_or _ _ _) => apply get_or_kept; [|intro]
    | |- sizes_kept _ (if ?b then _ else _) => destruct b eqn:?
    | |- sizes_kept _ (match ?b with _ => _ end) => destruct b eqn:?
    | |- sizes_kept _ (_, _) => solve [apply sizes_info; reflexivity]
    end ].

Lemma handle_sizes env c st args : sizes_kept st (handle env c st args).
Proof.
  destruct c; cbn [handle].
  - unfold handle_boardsize. apply get_or_kept; [apply sizes_info; reflexivity|]. intros n.
    destruct (existsb (Z.eqb n) (st_sizes st)) eqn:M; cbn [negb]; [|apply sizes_info; reflexivity].
    apply existsb_eqb in M. destruct (reset_then_sizes (with_size st n) (GOk None)) as [A B].
    split; [rewrite A; reflexivity|]. rewrite B. right. exact M.
  - unfold handle_clear_board. repeat kept.
  - unfold handle_komi. apply get_or_kept; [apply sizes_info; reflexivity|]. intros [m k]. apply sizes_info; reflexivity.
  - unfold handle_fixed_handicap. repeat kept.
  - unfold handle_set_free_handicap. repeat kept.
  - unfold handle_place_free_handicap. repeat kept.
  - unfold handle_play. repeat kept.
  - unfold handle_genmove, handle_genmove_common. repeat kept.
  - unfold handle_genmove_ex, handle_genmove_common. repeat kept.
  - unfold handle_reg_genmove, handle_genmove_common. repeat kept.
  - unfold handle_undo. destruct (st_history st); [repeat kept|].
    match goal with |- context [reset_to_moves ?p ?s ?l] => pose proof (reset_to_moves_sizes p s l) as H; destruct (reset_to_moves p s l) as [st1 r1] end.
    cbn [fst] in H. destruct H as [H1 H2]. destruct r1 as [u|ex]; [|destruct ex]; apply sizes_info; assumption.
  - unfold handle_showboard. repeat kept.
  - unfold handle_loadsgf. destruct args as [|path rest]; [repeat kept|].
    apply get_or_kept; [apply sizes_info; reflexivity|]. intros mn.
    destruct (env_files env path) as [[text e]|]; [|repeat kept].
    apply get_or_kept; [apply sizes_info; reflexivity|]. intros [size c].
    destruct (existsb (Z.eqb size) (st_sizes st)) eqn:M; cbn [negb]; [|repeat kept]. apply existsb_eqb in M.
    assert (forall st' (r : gres (option bytes)), st_sizes st' = st_sizes st -> st_size st' = size -> sizes_kept st (st', r)) as Q.
    { intros st' r A B. split; [exact A|right]. cbn [fst]. rewrite B. exact M. }
    apply get_or_kept; [apply Q; reflexivity|]. intros [[[komi handicap] b] ms].
    match goal with |- context [reset_to_moves ?p ?s ?l] => pose proof (reset_to_moves_sizes p s l) as H; destruct (reset_to_moves p s l) as [st2 [u|ex]] end;
      cbn [fst] in H; destruct H as [H1 H2]; cbn [set_history_base with_history with_base with_size st_sizes st_size] in H1, H2.
    + unfold set_komi. destruct komi as [m k]. apply Q; assumption.
    + destruct ex; try (apply Q; assumption).
      match goal with |- context [reset_to_moves ?p ?s ?l] => pose proof (reset_to_moves_sizes p s l) as H; destruct (reset_to_moves p s l) as [st3 [u|ex]] end;
        cbn [fst] in H; destruct H as [H3 H4]; cbn [set_history_base with_history with_base with_size st_sizes st_size] in H3, H4.
      * apply Q; congruence.
      * destruct ex; apply Q; congruence.
  - unfold handle_explain_last_move. repeat kept.
  - unfold handle_time_left. repeat kept.
  - unfold handle_time_settings. repeat kept.
Qed.

Lemma served_any_weak st : served_any st -> weak_inv st.
Proof.
  induction 1 as [sizes st N|env c args st st' r S I E].
  - apply inv_weak. eapply new_state_inv; eauto.
  - destruct I as [I F]. pose proof (handle_sizes env c st args) as H. rewrite E in H. destruct H as [H1 H2]. cbn [fst] in H1, H2.
    split; rewrite H1; [|exact F]. destruct H2 as [->|H2]; assumption.
Qed.

Lemma restart_inv env c st st' args : weak_inv st -> handle env c st args = (st', GOk None) ->
  c = Clear_board \/ c = Boardsize -> inv st'.
Proof.
  intros W E D; destruct D as [D|D]; subst c; cbn [handle] in E.
  - unfold handle_clear_board in E. destruct (reset_then_ok st (GOk None) W) as (st2 & Er & _ & I). rewrite Er in E. injection E as <-. exact I.
  - destruct args as [|a rest]; [discriminate|].
    destruct (interpret_int a) as [n| | | |] eqn:En; try (unfold handle_boardsize in E; cbn [first_arg] in E; rewrite En in E; cbn [get_or] in E; discriminate).
    destruct (existsb (Z.eqb n) (st_sizes st)) eqn:M.
    + apply existsb_eqb in M. destruct (boardsize_ok env st a rest n W En M) as (st2 & Er & _ & I).
      cbn [handle] in Er. rewrite Er in E. injection E as <-. exact I.
    + unfold handle_boardsize in E. cbn [first_arg] in E. rewrite En in E. cbn [get_or] in E. rewrite M in E. discriminate.
Qed.

Lemma served_inv st : served st -> inv st.
Proof.
  induction 1 as [sizes st N|env c args st st' r S I E L|env c args st st' S E D].
  - eapply new_state_inv; eauto.
  - pose proof (step_all env c st args I) as G. rewrite E in G. unfold good_step in G.
    destruct r; try (destruct G as (_ & _ & G); apply G;
      assert (c = Loadsgf \/ c <> Loadsgf) as [D|D] by (destruct c; auto; right; discriminate);
      [right; destruct (L D) as [D2|D2]; [exact D2|discriminate]|left; exact D]).
    apply G.
  - eapply restart_inv; eauto. apply served_any_weak. exact S.
Qed.

Lemma C37_replay_proof st : served st -> consistent st.
Proof. intros S. apply served_inv in S. apply S. Qed.

Lemma C37_ko_proof st : served st -> ko_right st.
Proof.
  intros S. apply served_inv in S. destruct S as (_ & _ & [K1 K2]). unfold ko_right. intros who reg.
  cbn [state_for gs_ko]. split.
  - intros k Hk. destruct K1 as [K1|(l1 & c & q & ps & k' & M & F & P & Kk & Ka)]; [rewrite K1 in Hk; discriminate|].
    rewrite P, Kk in Hk. destruct (colour_eqb_spec (opponent_of c) who) as [W|W]; [|discriminate].
    injection Hk as <-. exists l1, q, ps. rewrite <- W, opponent_involutive. auto.
  - intros l q k M Ka. destruct (K2 _ _ _ M) as [P K]. rewrite P, opponent_involutive.
    apply K in Ka. rewrite Ka. destruct (colour_eqb_spec who who); congruence.
Qed.

Lemma C37_effect_proof env c args st st' r : served st -> handle env c st args = (st', GOk r) -> effect env c args st r st'.
Proof.
  intros S E. apply served_inv in S. pose proof (step_all env c st args S) as G. rewrite E in G. apply G.
Qed.

Lemma C38_failure_proof env c args st st' r : served st -> handle env c st args = (st', r) ->
  (forall a, r <> GOk a) -> failure c st st'.
Proof.
  intros S E N. apply served_inv in S. pose proof (step_all env c st args S) as G. rewrite E in G.
  unfold good_step in G. destruct r; try tauto. exfalso. eapply N. reflexivity.
Qed.

(** ** When commands succeed *)

Lemma undo_ok env st args h hs : inv st -> st_history st = hs ++ [h] ->
  exists st', handle env Undo st args = (st', GOk None) /\ inv st' /\
    info_of st' = info_of (with_history st hs).
Proof.
  intros I H. pose proof (step_undo env st args I) as G.
  cbn [handle]. revert G. unfold handle_undo. destruct (st_history st) as [|h0 hs0] eqn:Hs; [destruct hs; discriminate|].
  rewrite H, removelast_last.
  assert (exists p, replays (st_size st) (view (st_base st)) (map mv hs) p) as (p & Rp).
  { pose proof I as ((_ & _ & _ & _ & A5) & _). unfold moves_made in A5. rewrite Hs, H in A5.
    change (fun h1 => (h_colour h1, h_move h1)) with mv in A5.
    rewrite map_app in A5. apply replays_app_inv in A5. destruct A5 as (p & Rp & _). eauto. }
  pose proof I as ((_ & _ & _ & A4 & _) & _).
  pose proof (reset_to_moves_spec (env_pick env) (st_size st) st hs A4 (history_on_board _ _ _ _ Rp)) as Q.
  destruct (reset_to_moves (env_pick env) st hs) as [st1 [u|e]].
  - intros [_ I']. exists st1. split; [reflexivity|]. split; [exact I'|]. apply Q.
  - destruct Q as (_ & _ & X). exfalso. eapply X. exact Rp.
Qed.

Lemma same_info_board st st' : inv st -> inv st' -> info_of st' = info_of st -> st_board st' = st_board st.
Proof.
  intros ((_ & _ & B & _ & R) & _) ((_ & _ & B' & _ & R') & _) E. injection E as _ E2 E3 E4 _ _ _ _ _.
  unfold moves_made in R'. rewrite E2, E3, E4 in R'. rewrite E2 in B'.
  eapply reachable_ext; eauto. eapply replays_fun; eauto.
Qed.

Lemma C37_undo_proof env env' c args args' st st1 r : served st -> In c [Play; Genmove; Genmove_ex] ->
  handle env c st args = (st1, GOk r) -> st_history st1 <> st_history st ->
  exists st2, handle env' Undo st1 args' = (st2, GOk None) /\ st_board st2 = st_board st /\ info_of st2 = info_of st.
Proof.
  intros S Hc E H. pose proof (served_inv _ S) as I. pose proof (step_all env c st args I) as G. rewrite E in G.
  destruct G as [Ef I1].
  assert (forall x, one_more x st st1 ->
    exists st2, handle env' Undo st1 args' = (st2, GOk None) /\ st_board st2 = st_board st /\ info_of st2 = info_of st) as OM.
  { intros x (_ & X). injection X as X1 X2 X3 X4 X5 X6 X7 X8 X9.
    destruct (undo_ok env' st1 args' x (st_history st) I1 X4) as (st2 & E2 & I2 & Inf).
    exists st2. split; [exact E2|].
    assert (info_of st2 = info_of st) as Q; [|split; [eapply same_info_board; eauto|exact Q]].
    rewrite Inf. unfold info_of.
    cbn [with_history st_sizes st_size st_base st_history st_handicap st_komi st_time_settings st_time_b st_time_w]. congruence. }
  assert (forall c0 cl, genmove_effect env cl c0 st r st1 ->
    exists st2, handle env' Undo st1 args' = (st2, GOk None) /\ st_board st2 = st_board st /\ info_of st2 = info_of st) as GE.
  { intros c0 cl (g & _ & [(_ & _ & _ & X)|[(_ & _ & _ & X)|(_ & m & v & _ & _ & _ & X)]]).
    - exfalso. apply H. rewrite X. reflexivity.
    - exfalso. apply H. rewrite X. reflexivity.
    - eapply OM; eauto. }
  destruct Hc as [<-|[<-|[<-|[]]]]; cbn [effect] in Ef.
  - destruct Ef as (? & ? & ? & ? & ? & _ & _ & _ & X & _). eapply OM; eauto.
  - destruct Ef as (? & ? & c0 & _ & _ & X). eapply GE; eauto.
  - destruct Ef as [(_ & _ & X)|(? & ? & c0 & _ & _ & cl & _ & X)]; [|eapply GE; eauto].
    exfalso. apply H. rewrite X. reflexivity.
Qed.

(** Success of the other commands. *)
Lemma play_vacant pick st c row col : inv st -> vacant st (Some (row, col)) ->
  exists b ko, play pick (st_board st) row col c = (b, Ok ko).
Proof.
  intros ((_ & _ & A3 & _) & _) [O V].
  destruct (play_cases pick _ _ (row, col) c A3) as [(_ & _ & b' & ko' & E & _)|[(_ & V' & _)|(O' & _)]]; try contradiction.
  eauto.
Qed.

Lemma play_ok env st a v rest c m : inv st -> interpret_colour a = GOk c ->
  interpret_vertex v (st_size st) = GOk m -> vacant st m ->
  exists st', handle env Play st (a :: v :: rest) = (st', GOk None).
Proof.
  intros I Ec Ev V. cbn [handle]. unfold handle_play. rewrite Ec. cbn [get_or]. rewrite Ev. cbn [get_or].
  destruct m as [[row col]|]; [|eauto].
  destruct (play_vacant (env_pick env) st c row col I V) as (b & ko & ->). eauto.
Qed.

Lemma genmove_ok env st a rest c g m : inv st -> st_size st <= 25 -> interpret_colour a = GOk c ->
  env_gen env (state_for st c false) c = Ok g -> generated_move g m -> vacant st m ->
  exists st' v, format_vertex m = Ok v /\ handle env Genmove st (a :: rest) = (st', GOk (Some v)).
Proof.
  intros I L Ec Eg (G1 & G2) V. cbn [handle]. unfold handle_genmove, handle_genmove_common. cbn [first_arg]. rewrite Ec. cbn [get_or].
  rewrite Eg. cbn [andb]. rewrite G1. destruct (gen_pass g).
  - subst m. eexists _, _. split; reflexivity.
  - destruct G2 as [G2 N]. destruct m as [[row col]|]; [|congruence]. rewrite <- G2.
    destruct (GameplayProofs.format_on_board (st_size st) (row, col) L (proj1 V)) as (v & Fv).
    destruct (play_vacant (env_pick env) st c row col I V) as (b & ko & ->).
    exists (add_move (with_ko_player (with_ko (with_board st b) ko) (Some (opponent_of c)))
       (mkH c (Some (row, col)) (gen_comments g) (gen_cookie g))), v.
    split; [exact Fv|]. match goal with |- context [format_vertex ?x] => replace (format_vertex x) with (@Ok bytes v) by (symmetry; exact Fv) end. reflexivity.
Qed.

Lemma fixed_ok env st a rest n pts : inv st -> interpret_int a = GOk n -> is_empty (st_board st) = true ->
  handicap_points n (st_size st) = Ok pts ->
  exists st' r, handle env Fixed_handicap st (a :: rest) = (st', GOk r).
Proof.
  intros I E Em HP. cbn [handle]. unfold handle_fixed_handicap. cbn [first_arg]. rewrite E. cbn [get_or]. rewrite Em. cbn [negb].
  rewrite HP. destruct (handicap_placed (env_pick env) st n pts I Em HP) as (b & -> & R & V & ->).
  destruct (handicap_points_ok _ _ _ HP) as (Hs & _ & _ & _ & _ & On & _).
  destruct (vertex_list_ok pts (st_size st)) as (vs & -> & F2); [lia|apply Forall_forall; intros p Hp; apply On; exact Hp|].
  cbn [lift gbind]. eauto.
Qed.

Lemma NoDup_app_fst {A} (a b : list A) : NoDup (a ++ b) -> NoDup a.
Proof.
  induction a as [|x a IH]; cbn [app]; intros H; [constructor|]. inversion H as [|? ? N D]; subst. constructor; auto.
  intros X. apply N. apply in_or_app. auto.
Qed.

Lemma place_vertices_ok pick s : 0 <= s -> forall args pts b pts0, reachable s b ->
  same_on s (view b) (stones pts0) -> NoDup (pts0 ++ pts) ->
  Z.of_nat (List.length pts0) + Z.of_nat (List.length args) <= s * s - 1 ->
  Forall2 (fun a p => interpret_vertex a s = GOk (Some p)) args pts ->
  exists b', place_vertices pick s b args = (b', GOk tt).
Proof.
  intros Hs. induction args as [|v args IH]; intros pts b pts0 R V ND L F; inversion F as [|? p ? pts' IV F']; subst; cbn [place_vertices].
  - eauto.
  - rewrite IV. destruct p as [row col]. pose proof (interpret_vertex_board _ _ _ IV) as O.
    assert (~ In (row, col) pts0) as NI.
    { intros X. apply NoDup_remove in ND. apply (proj2 ND). apply in_or_app. auto. }
    assert (view b (row, col) = None) as Em.
    { rewrite (V _ O). unfold stones. destruct (mem_point_spec (row, col) pts0); [contradiction|reflexivity]. }
    pose proof (place_vertices_spec pick s Hs [v] b pts0 R V) as Q. cbn [place_vertices] in Q. rewrite IV in Q.
    destruct (play_cases pick s b (row, col) Black R)
      as [(_ & _ & b' & ko & E & R' & _)|[(_ & X & E)|(NO & _)]]; [|congruence|contradiction]. cbn [fst snd] in E. rewrite E in Q |- *.
    destruct Q as (_ & ps & Fp & NDp & Vp).
    + apply NoDup_remove in ND. destruct ND as [ND _]. eapply NoDup_app_fst. exact ND.
    + cbn [List.length] in L |- *. lia.
    + inversion Fp as [|? q ? ps' IVq Fp']; subst. inversion Fp'; subst. rewrite IV in IVq. injection IVq as <-.
      eapply (IH pts' b' (pts0 ++ [(row, col)])); auto.
      * rewrite <- app_assoc. exact ND.
      * rewrite app_length. cbn [List.length] in L |- *. lia.
Qed.

Lemma set_free_ok env st args pts : inv st -> is_empty (st_board st) = true ->
  Forall2 (fun a p => interpret_vertex a (st_size st) = GOk (Some p)) args pts -> NoDup pts ->
  2 <= Z.of_nat (List.length pts) <= st_size st * st_size st - 1 ->
  exists st', handle env Set_free_handicap st args = (st', GOk None).
Proof.
  intros I Em F ND L. pose proof (Forall2_len _ _ _ F) as LE. rewrite <- LE in L.
  cbn [handle]. unfold handle_set_free_handicap, max_free_handicap.
  replace ((2 <=? Z.of_nat (List.length args)) && (Z.of_nat (List.length args) <=? st_size st * st_size st - 1)) with true
    by (symmetry; apply andb_true_iff; split; apply Z.leb_le; lia).
  cbn [negb]. rewrite Em. cbn [negb].
  pose proof I as ((_ & A2 & A3 & _) & _). destruct (empty_black _ _ A3 Em) as [_ EV].
  destruct (place_vertices_ok (env_pick env) (st_size st) ltac:(lia) args pts (st_board st) []) as (b & E); auto.
  - cbn [List.length Z.of_nat]. lia.
  - pose proof (place_vertices_spec (env_pick env) (st_size st) ltac:(lia) args (st_board st) [] A3) as Q.
    rewrite E in Q |- *. destruct Q as (Rb & _).
    + intros p Op. rewrite (EV p Op). reflexivity.
    + constructor.
    + cbn [List.length Z.of_nat]. lia.
    + rewrite (copy_proof _ _ Rb). eauto.
Qed.

(** ** loadsgf *)

Lemma has_property_get w n k : has_property w n k = false -> node_at w n <> None -> get_prop w n k = Err KeyError.
Proof.
  unfold has_property, get_prop, get_raw_list, dmem. destruct (node_at w n) as [x|]; [|congruence]. intros H _.
  destruct (dget k (t_props x)); [discriminate|reflexivity].
Qed.

Lemma file_says_read pick text e size komi h setup ms : 2 <= size ->
  file_says text e size komi h setup ms ->
  exists b, read_file pick text e = GOk (size, GOk (komi, h, b, ms)) /\ reachable size b /\ same_on size (view b) setup.
Proof.
  intros L2 (w & g & t & L & G & T & Sz & K & Hh & ab & aw & ae & Rd & S).
  pose proof (load_reachable _ _ _ _ L) as R. destruct (load_one _ _ _ _ L) as (g' & sz & _ & G' & P & _ & _).
  rewrite G in G'. injection G' as <-. destruct (root_pres w g R G) as (x & Ex & Px).
  unfold read_file. rewrite L, G.
  assert (get_komi w g = Ok komi) as EK.
  { unfold get_komi. destruct K as [->|[NP ->]]; [destruct komi; reflexivity|].
    rewrite has_property_get; [reflexivity|exact NP|congruence]. }
  rewrite EK. cbn [gbind].
  replace (match get_handicap w g with Err ValueError => GOk None | Err ex => uncaught ex | Ok h => GOk h end) with (@GOk (option Z) h)
    by (pose proof (handicap_spec w g sz e R G P) as HS; cbv zeta in HS; rewrite <- Hh in HS; destruct HS as [->|[-> ->]]; reflexivity).
  cbn [gbind].
  destruct (C21_read_proof pick w 0 g t None R G T) as (b' & r & ES & Rb & M); try discriminate.
  - cbn [usable]. rewrite Sz. exact L2.
  - intros kk Hk. exists x, (g_pres g). split; [exact Ex|]. split; [exact Px|].
    rewrite P. destruct Hk as [<-|[<-|[<-|[]]]]; reflexivity.
  - rewrite ES. destruct r as [ms'|ex].
    + destruct M as (ab' & aw' & ae' & Rd' & S'). destruct (readable_fun _ _ _ _ _ _ _ _ _ _ _ Rd Rd') as (<- & <- & <- & <-).
      exists b'. rewrite Sz. split; [reflexivity|]. rewrite Sz in Rb, S'. split; [exact Rb|].
      eapply same_on_trans; [exact S'|]. apply same_on_sym. exact S.
    + exfalso. destruct M as [_ M]. eapply M. exact Rd.
Qed.

Lemma loadsgf_ok env st path rest text e size komi h setup ms n p' : inv st ->
  env_files env path = Some (text, e) -> file_says text e size komi h setup ms -> In size (st_sizes st) ->
  match rest with
  | [] => n = List.length ms
  | a :: _ => exists z, interpret_int a = GOk z /\ n = Z.to_nat (z - 1)
  end ->
  replays size setup (firstn n ms) p' ->
  exists st', handle env Loadsgf st (path :: rest) = (st', GOk None).
Proof.
  intros I Ef Fs M Hn Rp. pose proof I as (_ & F & _). rewrite Forall_forall in F. pose proof (F _ M) as L2.
  destruct (file_says_read (env_pick env) _ _ _ _ _ _ _ L2 Fs) as (b & Er & Rb & Sb).
  cbn [handle]. unfold handle_loadsgf.
  assert (exists mn, (match rest with [] => GOk None | a :: _ => gbind (interpret_int a) (fun n => GOk (Some n)) end) = GOk mn /\
     match mn with None => map (fun cm => mkH (fst cm) (snd cm) None None) ms
     | Some z => firstn (Z.to_nat (Z.max 0 (z - 1))) (map (fun cm => mkH (fst cm) (snd cm) None None) ms) end
     = map (fun cm => mkH (fst cm) (snd cm) None None) (firstn n ms)) as (mn & -> & EH).
  { destruct rest as [|a rest].
    - subst n. exists None. split; [reflexivity|]. rewrite firstn_all. reflexivity.
    - destruct Hn as (z & -> & ->). exists (Some z). split; [reflexivity|]. rewrite firstn_map. do 2 f_equal. lia. }
  cbn [get_or]. rewrite Ef, Er. cbn [get_or]. apply existsb_eqb in M. rewrite M. cbn [negb get_or]. rewrite EH.
  set (st1 := set_history_base (with_size st size) b).
  set (newh := map _ _).
  assert (map mv newh = firstn n ms) as MV.
  { unfold newh. rewrite map_map. unfold mv. cbn [h_colour h_move]. rewrite <- (map_id (firstn n ms)) at 2. apply map_ext. intros [u v]; reflexivity. }
  assert (replays size (view b) (map mv newh) p') as Rp2.
  { rewrite MV. eapply replays_ext; [exact Rp|apply same_on_sym; exact Sb|apply same_on_refl]. }
  pose proof (reset_to_moves_spec (env_pick env) size st1 newh Rb (history_on_board _ _ _ _ Rp2)) as H.
  destruct (reset_to_moves (env_pick env) st1 newh) as [st2 [u|ex]]; [eauto|].
  destruct H as (_ & _ & X). exfalso. eapply X. exact Rp2.
Qed.

Lemma C37_succeed_proof env st : served st ->
  (forall a rest n, interpret_int a = GOk n -> In n (st_sizes st) ->
     exists st', handle env Boardsize st (a :: rest) = (st', GOk None)) /\
  (forall a v rest c m, interpret_colour a = GOk c -> interpret_vertex v (st_size st) = GOk m -> vacant st m ->
     exists st', handle env Play st (a :: v :: rest) = (st', GOk None)) /\
  (forall a rest c g m, st_size st <= 25 -> interpret_colour a = GOk c ->
     env_gen env (state_for st c false) c = Ok g -> generated_move g m -> vacant st m ->
     exists st' v, format_vertex m = Ok v /\ handle env Genmove st (a :: rest) = (st', GOk (Some v))) /\
  (forall args, st_history st <> [] -> exists st', handle env Undo st args = (st', GOk None)) /\
  (forall a rest n pts, interpret_int a = GOk n -> is_empty (st_board st) = true ->
     handicap_points n (st_size st) = Ok pts -> exists st' r, handle env Fixed_handicap st (a :: rest) = (st', GOk r)) /\
  (forall args pts, is_empty (st_board st) = true ->
     Forall2 (fun a p => interpret_vertex a (st_size st) = GOk (Some p)) args pts -> NoDup pts ->
     2 <= Z.of_nat (List.length pts) <= st_size st * st_size st - 1 ->
     exists st', handle env Set_free_handicap st args = (st', GOk None)) /\
  (forall path rest text e size komi h setup ms n p', env_files env path = Some (text, e) ->
     file_says text e size komi h setup ms -> In size (st_sizes st) ->
     match rest with
     | [] => n = List.length ms
     | a :: _ => exists z, interpret_int a = GOk z /\ n = Z.to_nat (z - 1)
     end ->
     replays size setup (firstn n ms) p' ->
     exists st', handle env Loadsgf st (path :: rest) = (st', GOk None)).
Proof.
  intros S. apply served_inv in S. split.
  { intros a rest n E M. destruct (boardsize_ok env st a rest n (inv_weak _ S) E M) as (st' & H & _). eauto. }
  split; [intros; eapply play_ok; eauto|]. split; [intros; eapply genmove_ok; eauto|]. split.
  { intros args N. destruct (exists_last N) as (hs & h & EH). destruct (undo_ok env st args h hs S EH) as (st' & H & _). eauto. }
  split; [intros; eapply fixed_ok; eauto|]. split; [intros; eapply set_free_ok; eauto|].
  intros. eapply loadsgf_ok; eauto.
Qed.

Lemma C37_restart_proof env st : served_any st ->
  (forall args, exists st', handle env Clear_board st args = (st', GOk None) /\ new_game_on (st_size st) st st' /\ consistent st') /\
  (forall a rest n, interpret_int a = GOk n -> In n (st_sizes st) ->
     exists st', handle env Boardsize st (a :: rest) = (st', GOk None) /\ new_game_on n st st' /\ consistent st').
Proof.
  intros S. apply served_any_weak in S. split.
  - intros args. destruct (reset_then_ok st (GOk None) S) as (st' & E & N & I). exists st'. split; [exact E|]. split; [exact N|apply I].
  - intros a rest n E M. destruct (boardsize_ok env st a rest n S E M) as (st' & H & N & I). exists st'. split; [exact H|]. split; [exact N|apply I].
Qed.


(** ** The last move *)
Lemma get_last_move_snoc l h player : get_last_move (l ++ [h]) player =
  if colour_eqb (h_colour h) (opponent_of player) then (true, h_move h) else (false, None).
Proof. unfold get_last_move. rewrite rev_app_distr. reflexivity. Qed.

Lemma list_ends {A} (l : list A) : l = [] \/ (exists h, l = [h]) \/ exists l' h0 h, l = l' ++ [h0; h].
Proof.
  destruct (rev l) as [|x [|y r]] eqn:E; apply (f_equal (@rev _)) in E; rewrite rev_involutive in E; subst l; [auto|cbn; eauto|].
  right. right. exists (rev r), y, x. cbn [rev]. rewrite <- app_assoc. reflexivity.
Qed.

Lemma C37_last_move_proof hs player :
  (forall l h, hs = l ++ [h] -> h_colour h = opponent_of player ->
     get_last_move hs player = (true, h_move h)) /\
  (~ (exists l h, hs = l ++ [h] /\ h_colour h = opponent_of player) -> get_last_move hs player = (false, None)) /\
  get_last_move hs player = fst (get_last_move_and_cookie hs player) /\
  (forall l h0 h, hs = l ++ [h0; h] -> h_colour h = opponent_of player -> h_colour h0 = player ->
     snd (get_last_move_and_cookie hs player) = h_cookie h0) /\
  (~ (exists l h0 h, hs = l ++ [h0; h] /\ h_colour h = opponent_of player /\ h_colour h0 = player) ->
     snd (get_last_move_and_cookie hs player) = None).
Proof.
  split; [|split; [|split; [|split]]].
  - intros l h -> E. rewrite get_last_move_snoc, E. destruct (colour_eqb_spec (opponent_of player) (opponent_of player)); congruence.
  - intros N. destruct (rev hs) as [|h r] eqn:Er; apply (f_equal (@rev _)) in Er; rewrite rev_involutive in Er; subst hs; [reflexivity|].
    cbn [rev] in N |- *. rewrite get_last_move_snoc.
    destruct (colour_eqb_spec (h_colour h) (opponent_of player)) as [E|E]; [|reflexivity]. exfalso. apply N. eauto.
  - unfold get_last_move_and_cookie. destruct (get_last_move hs player). reflexivity.
  - intros l h0 h -> E E0. unfold get_last_move_and_cookie.
    replace (l ++ [h0; h]) with ((l ++ [h0]) ++ [h]) by (rewrite <- app_assoc; reflexivity).
    rewrite get_last_move_snoc, E. destruct (colour_eqb_spec (opponent_of player) (opponent_of player)); [|congruence].
    rewrite !rev_app_distr. cbn [rev app snd]. rewrite E0. destruct (colour_eqb_spec player player); congruence.
  - intros N. unfold get_last_move_and_cookie. destruct (list_ends hs) as [->|[(h & ->)|(l & h0 & h & ->)]].
    + reflexivity.
    + change [h] with ([] ++ [h]) at 1. rewrite get_last_move_snoc. destruct (colour_eqb (h_colour h) (opponent_of player)); reflexivity.
    + replace (l ++ [h0; h]) with ((l ++ [h0]) ++ [h]) by (rewrite <- app_assoc; reflexivity).
      rewrite get_last_move_snoc. destruct (colour_eqb_spec (h_colour h) (opponent_of player)) as [E|E]; [|reflexivity].
      rewrite !rev_app_distr. cbn [rev app snd]. destruct (colour_eqb_spec (h_colour h0) player) as [E0|E0]; [|reflexivity].
      exfalso. apply N. eauto 6.
Qed.
