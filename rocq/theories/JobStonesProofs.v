(** The handicap stones of a game job (C62). *)
From Verif Require Import Base Bytes PyStr Dict BoardModel BoardSpec CommonModel CommonSpec CommonProofs CommonProps GameplayModel GameplaySpec GameplayProps
  ControllerModel ControllerSpec ControllerProofs
  GtpGameModel GtpGameSpec EngineModel EngineSpec EngineDialogueProofs JobSgfModel JobRunModel JobRunSpec JobKeptProofs JobLiveProofs JobTalkProofs.

Lemma mapm_forall2 {A B} (f : A -> res B) l : forall r, mapm f l = Ok r -> Forall2 (fun a b => f a = Ok b) l r.
Proof.
  induction l as [|a l IH]; intros r H; cbn in H.
  - injection H as <-. constructor.
  - destruct (f a) as [b|] eqn:E; [|discriminate]. cbn in H. destruct (mapm f l) as [r'|]; [|discriminate]. cbn in H. injection H as <-.
    constructor; auto.
Qed.

Lemma all_points_some l : forall pts, all_points l = Some pts -> l = map Some pts.
Proof.
  induction l as [|[p|] l IH]; intros pts H; cbn in H; try discriminate.
  - injection H as <-. reflexivity.
  - destruct (all_points l) as [ps|]; [|discriminate]. injection H as <-. cbn. rewrite (IH ps eq_refl). reflexivity.
Qed.

Lemma mem_point_In p l : mem_point p l = true <-> In p l.
Proof.
  unfold mem_point. rewrite existsb_exists. split.
  - intros (q & I & E). destruct (point_eqb_spec p q); congruence.
  - intros I. exists p. split; [exact I|]. destruct (point_eqb_spec p p); congruence.
Qed.

Lemma no_duplicate l : has_duplicate l = false -> NoDup l.
Proof.
  induction l as [|p l IH]; cbn; intros H; [constructor|]. apply orb_false_iff in H. destruct H as [A B]. constructor; [|auto].
  intros I. apply mem_point_In in I. congruence.
Qed.

Lemma mem_move_In m l : mem_move m l = true <-> In m l.
Proof.
  unfold mem_move. rewrite existsb_exists. split.
  - intros (x & I & E). destruct m as [p|], x as [q|]; try discriminate; [|exact I]. destruct (point_eqb_spec p q) as [->|]; [exact I|discriminate].
  - intros I. exists m. split; [exact I|]. destruct m as [p|]; [|reflexivity]. destruct (point_eqb_spec p p); congruence.
Qed.
Lemma same_set_In a b : same_set a b = true -> forall m, In m a <-> In m b.
Proof.
  unfold same_set. rewrite andb_true_iff, !forallb_forall. intros [A B] m. split; intros I.
  - apply mem_move_In. apply A. exact I.
  - apply mem_move_In. apply B. exact I.
Qed.

Lemma forall2_map_r {A B C} (P : A -> C -> Prop) (f : B -> C) l : forall m, Forall2 P l (map f m) -> Forall2 (fun a b => P a (f b)) l m.
Proof.
  induction l as [|a l IH]; intros [|b m] H; inversion H as [|x y xs ys P1 P2 E1 E2]; constructor; auto.
Qed.

Section Stones.
Context {X : Type} (ch : colour -> channel X).
Variable j : game_job.
Notation ctl := (controller (X * list cevent)).
Notation gc := (gctl (X * list cevent)).
Notation chr := (fun c => recorded (ch c)).

Lemma send_answer (g : gc) c (k : ctl) cmd args g' text : g_cautious g = false -> g_get c g = Some k -> live (ch c) k ->
  send_command chr g c cmd args = (g', CRet text) ->
  exists k', g' = g_put c k' g /\ live (ch c) k' /\ last_said k' cmd args text.
Proof.
  intros C G L H. unfold send_command in H. rewrite C in H. unfold on_player in H. rewrite G in H.
  destruct (do_command (recorded (ch c)) k cmd args) as [k' r'] eqn:D. injection H as <- ->.
  destruct (step_do (ch c) _ _ _ _ _ L D) as (St & _ & _). exists k'. split; [reflexivity|]. split; [exact (sp_live _ _ _ _ St)|].
  destruct L as (_ & Cl & _). destruct (do_command_open (ch c) k k' cmd args _ Cl D) as (evs & T & Ex & O & (N & K & A & E) & _).
  exists (trace k). rewrite T, A. f_equal.
  destruct (outcome_cases _ _ _ _ _ Ex O) as [(k0 & t0 & msg & _ & _ & _ & H & _)|[(e & _ & _ & _ & H & _)|[(t0 & Ev & H & _)|(t0 & msg & _ & H & _)]]];
    try discriminate H. injection H as <-. exact Ev.
Qed.

Lemma stones_proof sanitise pick rn b n rn' b' kb kw limit : gj_handicap j = Some n -> n <> 0 ->
  g_get Black (gb_gc b) = Some kb -> g_get White (gb_gc b) = Some kw -> live (ch Black) kb -> live (ch White) kw ->
  g_cautious (gb_gc b) = false -> gb_size b = gj_size j -> ready rn (gj_size j) limit None ->
  set_handicap (gtp_backend chr sanitise pick None) rn b n (gj_free j) = (rn', b', Ok tt) ->
  exists stones kb' kw', g_get Black (gb_gc b') = Some kb' /\ g_get White (gb_gc b') = Some kw' /\
    stones_from j kb' kw' stones /\ ready rn' (gj_size j) limit stones.
Proof.
  intros Hn N0 Gb Gw Lb Lw C Sz Rd H.
  assert (Sdef : forall kb kw stones, (if gj_free j then
        exists pts text vertices answer, stones = Some pts /\ 2 <= n <= gj_size j * gj_size j - 1 /\ NoDup pts /\
          last_said kb (str "place_free_handicap") [str_int n] text /\
          Forall2 (fun v p => move_from_vertex v (gj_size j) = Ok (Some p)) (split_on char_sp text) pts /\
          last_said kw (str "set_free_handicap") vertices answer /\
          Forall2 (fun p v => format_vertex (Some p) = Ok v) pts vertices
      else
        exists pts, stones = Some pts /\ handicap_points n (gj_size j) = Ok pts /\
          forall k, k = kb \/ k = kw -> exists text moves, last_said k (str "fixed_handicap") [str_int n] text /\
            Forall2 (fun v m => move_from_vertex v (gj_size j) = Ok m) (split_on char_sp text) moves /\
            forall m, In m moves <-> exists p, m = Some p /\ In p pts) -> @stones_from X j kb kw stones).
  { intros kb0 kw0 st Q. unfold stones_from. rewrite Hn. destruct n; [congruence|exact Q|exact Q]. }
  destruct (gj_free j) eqn:Fr.
  - destruct (C32_set_free_handicap _ _ _ _ _ _ _ _ _ Rd H) as (_ & Rng & pts & b1 & F & NF & Rd' & _).
    cbn [gtp_backend b_free b_notify_free] in F, NF. unfold get_free_handicap in F. destruct (negb _); [discriminate F|].
    destruct (send_command chr (gb_gc b) Black (str "place_free_handicap") [str_int n]) as [g1 r1] eqn:S1.
    destruct r1 as [text|m y|kd m|e]; try discriminate F.
    destruct (send_answer _ _ _ _ _ _ _ C Gb Lb S1) as (kb1 & -> & Lb1 & LS1).
    destruct (mapm _ (split_on char_sp text)) as [moves|e] eqn:Mv; [|discriminate F].
    destruct (all_points moves) as [ps|] eqn:Ap; [|discriminate F]. destruct (has_duplicate ps) eqn:Dup; [discriminate F|].
    assert (b1 = with_gc (g_put Black kb1 (gb_gc b)) b /\ pts = ps) as [-> ->] by (split; congruence).
    unfold notify_free_handicap in NF. destruct (mapm _ ps) as [vertices|e] eqn:Vs; [|discriminate NF].
    change (gb_gc (with_gc (g_put Black kb1 (gb_gc b)) b)) with (g_put Black kb1 (gb_gc b)) in NF.
    destruct (send_command chr (g_put Black kb1 (gb_gc b)) White (str "set_free_handicap") vertices) as [g2 r2] eqn:S2.
    destruct r2 as [t2|m y|kd m|e]; try discriminate NF.
    assert (C1 : g_cautious (g_put Black kb1 (gb_gc b)) = false) by exact C.
    destruct (send_answer (g_put Black kb1 (gb_gc b)) White kw _ _ _ _ C1 Gw Lw S2) as (kw1 & -> & Lw1 & LS2). assert (b' = with_gc (g_put White kw1 (g_put Black kb1 (gb_gc b))) b) as -> by (symmetry; exact (f_equal fst NF)).
    exists (Some ps), kb1, kw1. split; [reflexivity|]. split; [reflexivity|]. split; [|exact Rd'].
    apply Sdef. exists ps, text, vertices, t2. split; [reflexivity|]. split; [exact Rng|]. split; [apply no_duplicate; exact Dup|]. split; [exact LS1|].
    split; [|split; [exact LS2|apply mapm_forall2; exact Vs]].
    apply all_points_some in Ap. subst moves. rewrite Sz in Mv. apply mapm_forall2 in Mv. exact (forall2_map_r _ _ _ _ Mv).
  - destruct (C32_set_fixed_handicap _ _ _ _ _ _ _ _ _ Rd H) as (_ & pts & b1 & HP & F & NF & Rd' & _).
    cbn [gtp_backend b_notify_fixed] in F, NF. unfold notify_fixed_handicap in F. destruct (negb _); [discriminate F|].
    destruct (send_command chr (gb_gc b) Black (str "fixed_handicap") [str_int n]) as [g1 r1] eqn:S1.
    destruct r1 as [text|m y|kd m|e]; try discriminate F.
    destruct (send_answer _ _ _ _ _ _ _ C Gb Lb S1) as (kb1 & -> & Lb1 & LS1).
    destruct (mapm _ (split_on char_sp text)) as [seen|e] eqn:Mv; [|discriminate F].
    destruct (same_set seen (map Some pts)) eqn:Ss; [|discriminate F].
    assert (b1 = with_gc (g_put Black kb1 (gb_gc b)) b) as -> by congruence.
    unfold notify_fixed_handicap in NF. destruct (negb _); [discriminate NF|].
    change (gb_gc (with_gc (g_put Black kb1 (gb_gc b)) b)) with (g_put Black kb1 (gb_gc b)) in NF.
    destruct (send_command chr (g_put Black kb1 (gb_gc b)) White (str "fixed_handicap") [str_int n]) as [g2 r2] eqn:S2.
    destruct r2 as [t2|m y|kd m|e]; try discriminate NF.
    assert (C1 : g_cautious (g_put Black kb1 (gb_gc b)) = false) by exact C.
    destruct (send_answer (g_put Black kb1 (gb_gc b)) White kw _ _ _ _ C1 Gw Lw S2) as (kw1 & -> & Lw1 & LS2).
    destruct (mapm _ (split_on char_sp t2)) as [seen2|e] eqn:Mv2; [|discriminate NF].
    destruct (same_set seen2 (map Some pts)) eqn:Ss2; [|discriminate NF]. assert (b' = with_gc (g_put White kw1 (g_put Black kb1 (gb_gc b))) b) as -> by (symmetry; exact (f_equal fst NF)).
    change (gb_size (with_gc (g_put Black kb1 (gb_gc b)) b)) with (gb_size b) in Mv2. rewrite Sz in Mv, Mv2.
    exists (Some pts), kb1, kw1. split; [reflexivity|]. split; [reflexivity|]. split; [|exact Rd'].
    apply Sdef. exists pts. split; [reflexivity|]. split; [exact HP|].
    assert (In_some : forall m, In m (map Some pts) <-> exists p, m = Some p /\ In p pts).
    { intros m. rewrite in_map_iff. split; intros (p & A & B); exists p; auto. }
    intros k [->| ->].
    + exists text, seen. split; [exact LS1|]. split; [apply mapm_forall2; exact Mv|]. intros m. rewrite <- In_some. apply same_set_In. exact Ss.
    + exists t2, seen2. split; [exact LS2|]. split; [apply mapm_forall2; exact Mv2|]. intros m. rewrite <- In_some. apply same_set_In. exact Ss2.
Qed.

(** The stones are on the board. *)
Lemma stones_on_board (kb kw : ctl) stones : stones_from j kb kw stones ->
  forall p, In p (match stones with Some l => l | None => [] end) -> on_board (gj_size j) p.
Proof.
  unfold stones_from. intros H p I.
  assert (Rest : forall n, n <> 0 -> (if gj_free j then
        exists pts text vertices answer, stones = Some pts /\ 2 <= n <= gj_size j * gj_size j - 1 /\ NoDup pts /\
          last_said kb (str "place_free_handicap") [str_int n] text /\
          Forall2 (fun v p => move_from_vertex v (gj_size j) = Ok (Some p)) (split_on char_sp text) pts /\
          last_said kw (str "set_free_handicap") vertices answer /\
          Forall2 (fun p v => format_vertex (Some p) = Ok v) pts vertices
      else
        exists pts, stones = Some pts /\ handicap_points n (gj_size j) = Ok pts /\
          forall k, k = kb \/ k = kw -> exists text moves, last_said k (str "fixed_handicap") [str_int n] text /\
            Forall2 (fun v m => move_from_vertex v (gj_size j) = Ok m) (split_on char_sp text) moves /\
            forall m, In m moves <-> exists p, m = Some p /\ In p pts) -> on_board (gj_size j) p).
  { intros n N0 Q. destruct (gj_free j).
    - destruct Q as (pts & text & vs & an & -> & _ & _ & _ & F & _). clear - F I.
      induction F as [|v q vs ps E F IH]; [destruct I|]. destruct I as [->|I]; [|auto].
      destruct (C08_never_off_the_board v (gj_size j)) as [E'|(_ & [(E' & _)|(p' & E' & O)])]; rewrite E in E'; try discriminate E'.
      injection E' as <-. exact O.
    - destruct Q as (pts & -> & HP & _). destruct (C09_handicap_layouts _ _ _ HP) as (_ & _ & _ & _ & _ & O & _). exact (proj1 (O p I)). }
  destruct (gj_handicap j) as [[|q|q]|]; [rewrite H in I; destruct I| | |rewrite H in I; destruct I];
    eapply Rest; try exact H; discriminate.
Qed.
End Stones.
