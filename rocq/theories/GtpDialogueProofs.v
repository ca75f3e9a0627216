(** Running a game between GTP engines (C48). *)
From Coq Require Import QArith.
From Verif Require Import Base Bytes PyStr Dict BoardModel BoardSpec CommonModel SgfPropsModel GameplayModel GameplaySpec
  GameplayRunProofs GtpModel ControllerModel ControllerSpec ControllerProofs GtpGameModel GtpGameSpec GtpTalkProofs.
Open Scope Z_scope.

Lemma map_some {A B} (o : option A) (h : A -> B) y :
  match o with None => None | Some x => Some (h x) end = Some y -> exists x, o = Some x /\ h x = y.
Proof. destruct o as [x|]; [|discriminate]. intros H; injection H as <-. eauto. Qed.

(** ** A predicate kept by every call is kept by the run *)
Section Keeps.
Context {S : Type}.
Variable B : backend S.
Variable P : S -> Prop.
Hypothesis K_end : forall s s' r, b_end B s = (s', r) -> P s -> P s'.
Hypothesis K_move : forall c s s' r, b_get_move B c s = (s', r) -> P s -> P s'.
Hypothesis K_notify : forall c m s s' r, b_notify B c m s = (s', r) -> P s -> P s'.
Hypothesis K_comment : forall c s s' r, b_comment B c s = (s', r) -> P s -> P s'.
Hypothesis K_score : forall b s s' r, b_score B b s = (s', r) -> P s -> P s'.
Hypothesis K_after : forall f, b_after B = Some f -> forall c m b s s' r, f c m b s = (s', r) -> P s -> P s'.

Lemma keeps_over g s g' s' r : set_over (over_callback B) g s = (g', s', r) -> P s -> P s'.
Proof.
  unfold set_over, over_callback. destruct (b_end B s) as [s1 r1] eqn:E. intros H; injection H as <- <- <-. eauto.
Qed.
Lemma keeps_forfeit g s c why g' s' r : record_forfeit_by (over_callback B) g s c why = (g', s', r) -> P s -> P s'.
Proof. unfold record_forfeit_by. destruct (gm_over g); [intros H; injection H as <- <- <-; auto|apply keeps_over]. Qed.
Lemma keeps_resign g s c g' s' r : record_resignation_by (over_callback B) g s c = (g', s', r) -> P s -> P s'.
Proof. unfold record_resignation_by. destruct (gm_over g); [intros H; injection H as <- <- <-; auto|apply keeps_over]. Qed.
Lemma keeps_claim g s c g' s' r : record_claim_by (over_callback B) g s c = (g', s', r) -> P s -> P s'.
Proof. unfold record_claim_by. destruct (gm_over g); [intros H; injection H as <- <- <-; auto|apply keeps_over]. Qed.
Lemma keeps_after_move g s c g' s' r : after_move (over_callback B) g s c = (g', s', r) -> P s -> P s'.
Proof.
  unfold after_move. destruct (_ =? 2); [apply keeps_over|].
  destruct (match gm_limit _ with None => false | Some l => _ end); [apply keeps_over|].
  intros H; injection H as <- <- <-; auto.
Qed.
Lemma keeps_record pick g s c m g' s' r : record_move (over_callback B) pick g s c m = (g', s', r) -> P s -> P s'.
Proof.
  unfold record_move. destruct (gm_over g); [intros H; injection H as <- <- <-; auto|].
  destruct (negb _); [intros H; injection H as <- <- <-; auto|].
  destruct m as [[row col]|]; [|apply keeps_after_move].
  destruct (opoint_eqb _ _).
  - destruct (format_vertex _); [apply keeps_forfeit|intros H; injection H as <- <- <-; auto].
  - destruct (play _ _ _ _ _) as [b' [ko|[]]]; try (intros H; injection H as <- <- <-; auto; fail).
    + apply keeps_after_move.
    + destruct (format_vertex _); [apply keeps_forfeit|intros H; injection H as <- <- <-; auto].
Qed.
Lemma keeps_ended r0 c g s out r1 g1 s1 out1 : ended_without_move B r0 c (g, s, out) = (r1, g1, s1, out1) -> P s -> P s1.
Proof.
  unfold ended_without_move. destruct out; [|intros H; injection H as <- <- <- <-; auto].
  destruct (b_comment B c s) as [s2 [cm|e]] eqn:E; intros H; injection H as <- <- <- <-; eauto.
Qed.

Lemma keeps_do_move pick r0 g s c r1 g1 s1 out : do_move B pick r0 g s c = (r1, g1, s1, out) -> P s -> P s1.
Proof.
  unfold do_move. destruct (b_get_move B c s) as [s2 [a|e]] eqn:E; [|intros H; injection H as <- <- <- <-; eauto].
  intros H Ps. pose proof (K_move _ _ _ _ E Ps) as P2. revert H. destruct a as [m|why| | |].
  - destruct (record_move (over_callback B) pick g s2 c m) as [[g3 s3] [[]|e]] eqn:R; pose proof (keeps_record _ _ _ _ _ _ _ _ R P2) as P3;
      [|intros H; injection H as <- <- <- <-; exact P3].
    destruct (b_comment B c s3) as [s4 [cm|e]] eqn:C; pose proof (K_comment _ _ _ _ C P3) as P4;
      [|intros H; injection H as <- <- <- <-; exact P4].
    destruct (gm_forfeited g3); [intros H; injection H as <- <- <- <-; exact P4|].
    destruct (b_notify B (opponent_of c) m s4) as [s5 [st|e]] eqn:N; pose proof (K_notify _ _ _ _ _ N P4) as P5;
      [|intros H; injection H as <- <- <- <-; exact P5].
    assert (T : forall f : option (colour * bytes), st <> SBad ->
      match f with
      | Some (loser, msg) =>
          match record_forfeit_by (over_callback B) g3 s5 loser msg with
          | (g5, s5, Err e) => (r0, g5, s5, Err e)
          | (g5, s5, Ok _) => (set_final c cm r0, g5, s5, Ok tt)
          end
      | None =>
          let r5 := add_move (c, m, cm) r0 in
          match b_after B with
          | None => (r5, g3, s5, Ok tt)
          | Some f => let (s5, x) := f c m (gm_board g3) s5 in (r5, g3, s5, x)
          end
      end = (r1, g1, s1, out) -> P s1).
    { intros f _. destruct f as [[loser msg]|].
      - destruct (record_forfeit_by (over_callback B) g3 s5 loser msg) as [[g6 s6] [[]|e]] eqn:F;
          pose proof (keeps_forfeit _ _ _ _ _ _ _ F P5) as P6; intros H; injection H as <- <- <- <-; exact P6.
      - cbv zeta. destruct (b_after B) as [f|] eqn:Af.
        + destruct (f c m (gm_board g3) s5) as [s6 x] eqn:Fx. intros H; injection H as <- <- <- <-.
          exact (K_after f eq_refl _ _ _ _ _ _ Fx P5).
        + intros H; injection H as <- <- <- <-; exact P5. }
    destruct st as [|msg|msg|]; try (apply T; discriminate).
    intros H; injection H as <- <- <- <-; exact P5.
  - destruct (record_forfeit_by (over_callback B) g s2 c why) as [[g3 s3] o] eqn:R. intros H.
    exact (keeps_ended _ _ _ _ _ _ _ _ _ H (keeps_forfeit _ _ _ _ _ _ _ R P2)).
  - destruct (record_resignation_by (over_callback B) g s2 c) as [[g3 s3] o] eqn:R. intros H.
    exact (keeps_ended _ _ _ _ _ _ _ _ _ H (keeps_resign _ _ _ _ _ _ R P2)).
  - destruct (record_claim_by (over_callback B) g s2 c) as [[g3 s3] o] eqn:R. intros H.
    exact (keeps_ended _ _ _ _ _ _ _ _ _ H (keeps_claim _ _ _ _ _ _ R P2)).
  - intros H; injection H as <- <- <- <-; exact P2.
Qed.

Lemma keeps_set_result r0 g s r1 s1 out : set_result B r0 g s = (r1, s1, out) -> P s -> P s1.
Proof.
  unfold set_result. destruct (gm_passed_out g).
  - destruct (b_score B (gm_board g) s) as [s2 [sc|e]] eqn:E.
    + cbv zeta. destruct (result_from_game_score sc); intros H; injection H as <- <- <-; eauto.
    + intros H; injection H as <- <- <-; eauto.
  - destruct (result_from_unscored g); intros H; injection H as <- <- <-; auto.
Qed.

Lemma keeps_loop pick fuel : forall r0 g s r1 s1 out, run_loop B fuel pick r0 g s = (r1, s1, out) -> P s -> P s1.
Proof.
  induction fuel as [|fuel IH]; intros r0 g s r1 s1 out; cbn [run_loop]; (destruct (gm_over g); [apply keeps_set_result|]).
  - intros H; injection H as <- <- <-; auto.
  - destruct (gm_next g) as [c|]; [|intros H; injection H as <- <- <-; auto].
    destruct (do_move B pick r0 g s c) as [[[r2 g2] s2] [[]|e]] eqn:D; intros H Ps; pose proof (keeps_do_move _ _ _ _ _ _ _ _ _ D Ps) as P2.
    + exact (IH _ _ _ _ _ _ H P2).
    + injection H as <- <- <-; exact P2.
Qed.

Lemma keeps_run pick fuel r0 s r1 s1 out : run B fuel pick r0 s = (r1, s1, out) -> P s -> P s1.
Proof.
  unfold run. destruct (negb _); [intros H; injection H as <- <- <-; auto|].
  destruct (make_game pick r0) as [g|e]; [apply keeps_loop|intros H; injection H as <- <- <-; auto].
Qed.
End Keeps.

(** ** Exceptions *)
(** Neither of the exceptions reserved for GTP errors. *)
Definition ordinary (e : exn) : Prop := e <> bad_gtp /\ e <> channel_error.
Lemma other_ordinary e : ordinary (other_exn e).
Proof.
  unfold ordinary, bad_gtp, channel_error. destruct e; cbn; split; try discriminate; intros H; injection H as H; lia.
Qed.
(** What may be raised. *)
Definition fair_raise (ended : bool) (e : exn) : Prop := e <> bad_gtp /\ (e = channel_error -> ended = false).
Lemma ordinary_fair ended e : ordinary e -> fair_raise ended e.
Proof. intros [A B]. split; [exact A|]. intros ->. elim B; reflexivity. Qed.
Lemma channel_fair : fair_raise false channel_error.
Proof. split; [discriminate|reflexivity]. Qed.

Lemma query_raise p ended cmd q r e : query p ended cmd q r -> r = Err e -> fair_raise ended e.
Proof.
  intros Q. destruct Q as [b|evs text Ex|evs text Ex|evs k text Ex|evs x Ex]; try discriminate.
  - destruct ended; [discriminate|]. intros H; injection H as <-. apply channel_fair.
  - intros H; injection H as <-. apply ordinary_fair, other_ordinary.
Qed.
Lemma optional_raise p ended tr cmd evs r e : optional_talk p ended tr cmd evs r -> r = Err e -> fair_raise ended e.
Proof.
  intros Q. destruct Q as [q Q|q x Q|q Q E B|q evs rp Q B Ex]; try discriminate.
  - intros H. injection H as <-. exact (query_raise _ _ _ _ _ _ Q eq_refl).
  - destruct rp; try discriminate.
    + destruct ended; [discriminate|]. intros H; injection H as <-. apply channel_fair.
    + intros H; injection H as <-. apply ordinary_fair, other_ordinary.
Qed.

Lemma format_raise m e : format_vertex m = Err e -> ordinary e.
Proof.
  unfold format_vertex, column_letter. destruct m as [[row col]|]; [|discriminate].
  destruct (negb _ || negb _); [intros H; injection H as <-; split; discriminate|].
  destruct (nth_error _ _); cbn; [discriminate|]. intros H; injection H as <-; split; discriminate.
Qed.
Lemma flood_raise {A} pick fuel b t (visit : cell -> A -> A) : forall pts todo acc e,
  flood pick fuel b t visit pts todo acc = Err e -> ordinary e.
Proof.
  induction fuel as [|fuel IH]; intros pts todo acc e; destruct todo as [|p todo]; cbn [flood]; try discriminate.
  - intros H; injection H as <-; split; discriminate.
  - cbv zeta. destruct (fold_left _ _ _) as [x y]. apply IH.
Qed.
Lemma area_raise pick b : forall pts handled sb sw e, area_loop pick b pts handled sb sw = Err e -> ordinary e.
Proof.
  induction pts as [|p pts IH]; intros handled sb sw e; cbn [area_loop]; [discriminate|].
  destruct (cell_at (grid b) p) as [[|]|]; try apply IH. destruct (mem_point p handled); [apply IH|].
  unfold make_empty_region. match goal with |- context [bind ?f _] => destruct f as [[rp cols]|x] eqn:F end; cbn [bind].
  - cbv zeta. destruct cols as [|[|] [|? ?]]; apply IH.
  - intros H; injection H as <-. exact (flood_raise _ _ _ _ _ _ _ _ _ F).
Qed.
Lemma new_score_raise w m e : new_game_score w m = Err e -> e = ValueError.
Proof.
  unfold new_game_score. destruct w, m as [m|]; try discriminate; destruct (fst m =? 0); try discriminate; try congruence.
  destruct (fst m <? 0); [congruence|discriminate].
Qed.
Lemma position_raise pick b komi comp h e : score_from_position pick b komi comp h = Err e -> ordinary e.
Proof.
  unfold score_from_position, area_score. destruct (area_loop pick b (board_points (side b)) [] 0 0) as [raw|x] eqn:A; cbn [bind].
  - unfold adjust_score. destruct comp as [cp|]; cbn [bind].
    + match goal with |- (let (_, _) := ?f in _) = _ -> _ => destruct f as [w m] end. intros H. apply new_score_raise in H. subst. split; discriminate.
    + intros H; injection H as <-. split; discriminate.
  - intros H; injection H as <-. exact (area_raise _ _ _ _ _ _ _ A).
Qed.

(** ** The run *)
Section Game.
Context {X : Type}.
Variable ch : colour -> channel X.
Variable sanitise : bytes -> bytes.
Variable pick : nat -> nat.
Variable after : option (colour -> gmove -> board -> gbackend (X * list cevent) -> gbackend (X * list cevent) * res unit).
(** The callback leaves the players alone, and does not raise the GTP exceptions. *)
Hypothesis After : forall f, after = Some f -> forall c m b s,
  fst (f c m b s) = s /\ forall e, snd (f c m b s) = Err e -> e <> bad_gtp /\ e <> channel_error.

Notation gb := (gbackend (X * list cevent)).
Definition BG : backend gb := gtp_backend (chs ch) sanitise pick after.

Definition same_game (s s' : gb) : Prop :=
  gb_size s' = gb_size s /\ gb_claim_b s' = gb_claim_b s /\ gb_claim_w s' = gb_claim_w s /\
  gb_scorers s' = gb_scorers s /\ gb_internal s' = gb_internal s /\
  g_code_b (gb_gc s') = g_code_b (gb_gc s) /\ g_code_w (gb_gc s') = g_code_w (gb_gc s).

Lemma same_game_refl s : same_game s s.
Proof. unfold same_game. auto 10. Qed.
Lemma same_game_trans a b c : same_game a b -> same_game b c -> same_game a c.
Proof. unfold same_game. intuition congruence. Qed.
Lemma same_party s s' c k k' : same_game s s' -> c_name k' = c_name k -> c_aliases k' = c_aliases k ->
  player_party s' c k' = player_party s c k.
Proof.
  intros (A & B & C & D & E & F & G) N Al. unfold player_party. rewrite N, Al, D, E.
  destruct c; cbn; rewrite ?B, ?C, ?F, ?G; reflexivity.
Qed.

Variable s0 : gb.

Record sound_log (s : gb) (log : list event) : Prop := mkSoundLog {
  sl_same : same_game s0 s;
  sl_cautious : g_cautious (gb_gc s) = existsb is_end log;
  sl_talk : forall c, exists k0 k tr, g_get c (gb_gc s0) = Some k0 /\ g_get c (gb_gc s) = Some k /\ grew k0 k tr /\
    dialogue (player_party s0 c k0) sanitise (gb_size s0) c (trace k0) log tr;
  sl_raise : forall before ev rest e, log = before ++ ev :: rest -> raised ev = Some e -> is_end ev = false /\ fair_raise (existsb is_end before) e
}.

Lemma sound_playing s log : sound_log s log -> playing (gb_gc s).
Proof. intros H c. destruct (sl_talk _ _ H c) as (k0 & k & tr & _ & G & Gr & _). exists k. split; [exact G|apply Gr]. Qed.

Lemma sound_step s log s' ev : sound_log s log -> same_game s s' ->
  g_cautious (gb_gc s') = is_end ev || g_cautious (gb_gc s) ->
  (forall c k, g_get c (gb_gc s) = Some k -> exists k' evs, g_get c (gb_gc s') = Some k' /\ grew k k' evs /\
     segment (player_party s c k) sanitise (gb_size s) c (existsb is_end log) (trace k) ev evs) ->
  (forall e, raised ev = Some e -> is_end ev = false /\ fair_raise (existsb is_end log) e) ->
  sound_log s' (log ++ [ev]).
Proof.
  intros [Sm Ca Tk Ra] Sm' Ca' Tk' Ra'. constructor.
  - exact (same_game_trans _ _ _ Sm Sm').
  - rewrite Ca', Ca, existsb_app. cbn. rewrite orb_false_r. apply orb_comm.
  - intros c. destruct (Tk c) as (k0 & k & tr & G0 & G & Gr & D). destruct (Tk' c k G) as (k' & evs & G' & Gr' & Sg).
    exists k0, k', (tr ++ evs). split; [exact G0|]. split; [exact G'|]. split; [exact (grew_trans _ _ _ _ _ Gr Gr')|].
    apply dl_event; [exact D|]. destruct Gr as (T & N & Al & F). rewrite <- T.
    rewrite (same_party s0 s c k0 k Sm N Al) in Sg. destruct Sm as (Sz & _). rewrite <- Sz. exact Sg.
  - intros before x rest e E R. destruct rest as [|y rest].
    + apply app_inj_tail in E. destruct E as [<- <-]. exact (Ra' e R).
    + destruct (exists_last (l := y :: rest)) as (l & z & El); [discriminate|]. rewrite El in E.
      change (before ++ x :: l ++ [z]) with (before ++ (x :: l) ++ [z]) in E. rewrite app_assoc in E.
      apply app_inj_tail in E. destruct E as [E _]. exact (Ra before x l e E R).
Qed.

(** One player is told something. *)
Lemma sound_told s log c k k' evs g' ev : sound_log s log -> told (gb_gc s) g' c k k' evs -> is_end ev = false ->
  segment (player_party s c k) sanitise (gb_size s) c (existsb is_end log) (trace k) ev evs ->
  (forall d kd, d <> c -> segment (player_party s d kd) sanitise (gb_size s) d (existsb is_end log) (trace kd) ev []) ->
  (forall e, raised ev = Some e -> fair_raise (existsb is_end log) e) ->
  sound_log (with_gc g' s) (log ++ [ev]).
Proof.
  intros H (G & -> & Gr) NE Sg Others Ra. apply (sound_step s).
  - exact H.
  - unfold same_game. cbn. destruct c; cbn; auto 10.
  - cbn. rewrite NE. destruct c; reflexivity.
  - intros d kd Gd. cbn [with_gc gb_gc]. rewrite get_put. destruct (colour_eqb_spec d c) as [->|N].
    + exists k', evs. rewrite G in Gd. injection Gd as <-. auto.
    + exists kd, []. split; [exact Gd|]. split; [|exact (Others d kd N)].
      destruct (sound_playing _ _ H d) as (k2 & G2 & F2). rewrite G2 in Gd. injection Gd as <-. apply grew_refl, F2.
  - auto.
Qed.

Lemma party_shape (s : gb) c (k : controller (X * list cevent)) : player_party s c k = party_of k (g_code c (gb_gc s)) (claim_allowed c s) (if gb_internal s then O else scorer_count c (gb_scorers s)).
Proof. reflexivity. Qed.

Lemma comment_step c s log s' r : sound_log s log -> get_last_move_comment (chs ch) sanitise c s = (s', r) ->
  sound_log s' (log ++ [EComment c r]).
Proof.
  intros H. unfold get_last_move_comment.
  destruct (maybe_send_command (chs ch) (gb_gc s) c (str "gomill-explain_last_move") []) as [g1 r1] eqn:M.
  apply (maybe_talk ch (g_code c (gb_gc s)) (claim_allowed c s) (if gb_internal s then O else scorer_count c (gb_scorers s))) in M;
    [|exact (sound_playing _ _ H)].
  destruct M as (k & k' & evs & T & O & NB). intros E; injection E as <- <-.
  rewrite (sl_cautious _ _ H) in O.
  apply (sound_told s log c k k' evs); auto.
  - cbn [segment]. destruct (colour_eqb_spec c c); [|congruence]. rewrite party_shape. eexists. split; [exact O|].
    destruct (to_res r1) as [[t|]|e9]; cbn; try reflexivity.
  - intros d kd N. cbn [segment]. destruct (colour_eqb_spec c d); [congruence|reflexivity].
  - intros e. cbn [raised]. destruct (to_res r1) as [t|e1] eqn:Tr; cbn [bind]; [discriminate|].
    intros Q; injection Q as <-. exact (optional_raise _ _ _ _ _ _ _ O eq_refl).
Qed.

Lemma notify_step c m s log s' r : sound_log s log -> notify_move (chs ch) c m s = (s', r) ->
  sound_log s' (log ++ [ENotify c m r]).
Proof.
  intros H. unfold notify_move. destruct (sound_playing _ _ H c) as (k0 & G0 & F0).
  assert (Ot : forall g' k k' evs r0, told (gb_gc s) g' c k k' evs ->
    play_talk (player_party s c k) (existsb is_end log) (trace k) (opponent_of c) m evs r0 ->
    (forall e, r0 = Err e -> fair_raise (existsb is_end log) e) ->
    sound_log (with_gc g' s) (log ++ [ENotify c m r0])).
  { intros g' k k' evs r0 T Pt Ra. apply (sound_told s log c k k' evs); auto.
    - cbn [segment]. destruct (colour_eqb_spec c c); [exact Pt|congruence].
    - intros d kd N. cbn [segment]. destruct (colour_eqb_spec c d); [congruence|reflexivity].
    - intros e. cbn [raised]. destruct r0; [discriminate|]. intros Q; injection Q as <-. auto. }
  destruct (format_vertex m) as [v|e] eqn:Fv.
  2:{ intros E; injection E as <- <-. replace s with (with_gc (gb_gc s) s) by (destruct s; reflexivity).
      apply (Ot (gb_gc s) k0 k0 []); [apply told_refl; assumption|apply pt_unwritable; exact Fv|].
      intros x Q; injection Q as <-. apply ordinary_fair. exact (format_raise _ _ Fv). }
  destruct (send_command (chs ch) (gb_gc s) c (str "play") [colour_letter (opponent_of c); v]) as [g1 r1] eqn:Sc.
  apply send_talk in Sc; [|exact (sound_playing _ _ H)]. rewrite (sl_cautious _ _ H) in Sc.
  assert (Late : late_status (player_party s c k0) (Ok (SError (late_message c (gb_gc s))))) by reflexivity.
  destruct Sc as (k & k' & [(Ca & Br & T & ->)|(NB & evs & rp & T & Ex & R)]).
  - intros E; injection E as <- <-. apply (Ot g1 k k' []); [exact T| |discriminate].
    apply (pt_given_up _ _ _ _ _ v); auto.
  - destruct rp as [text|text|kd text|e].
    + subst r1. intros E; injection E as <- <-. apply (Ot g1 k k' evs); [exact T| |discriminate].
      exact (pt_sent (player_party s c k) _ _ _ _ v evs (Success text) _ Fv NB Ex eq_refl).
    + destruct R as (msg & -> & M). intros E.
      assert (F := pt_sent (player_party s c k) (existsb is_end log) (trace k) (opponent_of c) m v evs (Failure text)).
      cbv beta iota in F. destruct (bytes_eqb text (str "illegal move")); injection E as <- <-;
        (apply (Ot g1 k k' evs); [exact T| |discriminate]); apply F; auto. exists msg. auto.
    + destruct (existsb is_end log) eqn:En.
      * subst r1. intros E; injection E as <- <-. apply (Ot g1 k k' evs); [exact T| |discriminate].
        apply (pt_sent (player_party s c k) _ _ _ _ v evs (Broken kd text) _ Fv NB Ex). reflexivity.
      * destruct R as (msg & ->). intros E; injection E as <- <-. apply (Ot g1 k k' evs); [exact T| |].
        -- apply (pt_sent (player_party s c k) _ _ _ _ v evs (Broken kd text) _ Fv NB Ex). reflexivity.
        -- intros x Q; injection Q as <-. apply channel_fair.
    + subst r1. intros E; injection E as <- <-. apply (Ot g1 k k' evs); [exact T| |].
      * apply (pt_sent (player_party s c k) _ _ _ _ v evs (Strange e) _ Fv NB Ex). reflexivity.
      * intros x Q; injection Q as <-. apply ordinary_fair, other_ordinary.
Qed.

Lemma end_step s log s' r : sound_log s log -> end_game s = (s', r) -> sound_log s' (log ++ [EEnd r]).
Proof.
  intros H E. injection E as <- <-. apply (sound_step s).
  - exact H.
  - unfold same_game. cbn. auto 10.
  - reflexivity.
  - intros c k G. exists k, []. split; [destruct c; exact G|]. split; [|reflexivity].
    destruct (sound_playing _ _ H c) as (k2 & G2 & F2). rewrite G2 in G. injection G as <-. apply grew_refl, F2.
  - discriminate.
Qed.

Lemma after_step f c m b s log s' r : after = Some f -> sound_log s log -> f c m b s = (s', r) ->
  sound_log s' (log ++ [EAfter c m b r]).
Proof.
  intros Af H E. destruct (After f Af c m b s) as [A1 A2]. rewrite E in A1, A2. cbn in A1, A2. subst s'. apply (sound_step s).
  - exact H.
  - apply same_game_refl.
  - reflexivity.
  - intros d k G. exists k, []. split; [exact G|]. split; [|reflexivity].
    destruct (sound_playing _ _ H d) as (k2 & G2 & F2). rewrite G2 in G. injection G as <-. apply grew_refl, F2.
  - intros e. cbn [raised]. destruct r; [discriminate|]. intros Q; injection Q as <-. split; [reflexivity|]. apply ordinary_fair, A2. reflexivity.
Qed.

Lemma ask_move_talk code claims n (g g' : gctl (X * list cevent)) c size may cmd args r :
  playing g -> ask_move (chs ch) g c size may cmd args = (g', r) ->
  exists k k' evs, told g g' c k k' evs /\
    (g_cautious g = false -> genmove_talk (party_of k code claims n) size cmd args may evs r) /\
    (forall e, r = Err e -> fair_raise (g_cautious g) e).
Proof.
  intros P. unfold ask_move. destruct (send_command (chs ch) g c cmd args) as [g1 r1] eqn:Sc.
  apply send_talk in Sc; [|exact P]. destruct Sc as (k & k' & [(Ca & Br & T & ->)|(NB & evs & rp & T & Ex & R)]).
  - intros E; injection E as <- <-. exists k, k', []. split; [exact T|]. split; [congruence|discriminate].
  - assert (Gm : forall r0, (match rp with
       | Success text => exists a, r0 = Ok a /\ move_reply size may text a
       | Failure text => exists msg, r0 = Ok (AForfeit msg) /\ message_about (c_name k) msg text
       | Broken _ _ => r0 = Err channel_error
       | Strange e => r0 = Err (other_exn e) end) -> genmove_talk (party_of k code claims n) size cmd args may evs r0).
    { intros r0 Q. exists rp. split; [exact Ex|exact Q]. }
    destruct rp as [text|text|kd text|e].
    + subst r1. intros E.
      assert (E1 : g1 = g') by congruence. subst g'. exists k, k', evs. split; [exact T|].
      assert (R : exists a, r = Ok a /\ move_reply size may text a).
      { apply (f_equal snd) in E. unfold snd in E. rewrite <- E. clear E.
        destruct (bytes_eqb_spec (map lower_char text) (str "resign")) as [Rs|NR].
        { eexists. split; [reflexivity|]. apply mr_resign; exact Rs. }
        destruct may.
        - cbn [andb]. destruct (bytes_eqb_spec (map lower_char text) (str "claim")) as [Cl|NC].
          { eexists. split; [reflexivity|]. apply mr_claim; auto. }
          destruct (move_from_vertex (map lower_char text) size) as [m|x] eqn:Mv; eexists; (split; [reflexivity|]);
            [apply mr_move|apply (mr_nonsense _ _ _ x)]; auto.
        - cbn [andb]. destruct (move_from_vertex (map lower_char text) size) as [m|x] eqn:Mv; eexists; (split; [reflexivity|]);
            [apply mr_move|apply (mr_nonsense _ _ _ x)]; auto; discriminate. }
      split; [intros _; apply Gm; exact R|]. intros e Q. destruct R as (a & R & _). congruence.
    + destruct R as (msg & -> & M). intros E; injection E as <- <-. exists k, k', evs. split; [exact T|].
      split; [intros _; apply Gm; eauto|discriminate].
    + destruct (g_cautious g) eqn:Ca.
      * subst r1. intros E; injection E as <- <-. exists k, k', evs. split; [exact T|]. split; [congruence|discriminate].
      * destruct R as (msg & ->). intros E; injection E as <- <-. exists k, k', evs. split; [exact T|].
        split; [intros _; apply Gm; reflexivity|]. intros x Q; injection Q as <-. apply channel_fair.
    + subst r1. intros E; injection E as <- <-. exists k, k', evs. split; [exact T|].
      split; [intros _; apply Gm; reflexivity|]. intros x Q; injection Q as <-. apply ordinary_fair, other_ordinary.
Qed.

Lemma move_step c s log s' r : sound_log s log -> get_move (chs ch) c s = (s', r) ->
  sound_log s' (log ++ [EGetMove c r]).
Proof.
  intros H. pose proof (sound_playing _ _ H) as P. unfold get_move.
  set (code := g_code c (gb_gc s)). set (cl := claim_allowed c s).
  set (n := if gb_internal s then O else scorer_count c (gb_scorers s)).
  assert (Ot : forall g' k k' evs r0, told (gb_gc s) g' c k k' evs ->
    (existsb is_end log = false -> move_talk (party_of k code cl n) (gb_size s) c evs r0) ->
    (forall e, r0 = Err e -> fair_raise (existsb is_end log) e) ->
    sound_log (with_gc g' s) (log ++ [EGetMove c r0])).
  { intros g' k k' evs r0 T Pt Ra. apply (sound_told s log c k k' evs); auto.
    - cbn [segment]. destruct (colour_eqb_spec c c); [exact Pt|congruence].
    - intros d kd N. cbn [segment]. destruct (colour_eqb_spec c d); [congruence|reflexivity].
    - intros e. cbn [raised]. destruct r0; [discriminate|]. intros Q; injection Q as <-. auto. }
  pose proof (sl_cautious _ _ H) as Ca.
  destruct cl eqn:Cl; unfold cl in *; clear cl.
  - destruct (g_known_command (chs ch) (gb_gc s) c (str "gomill-genmove_ex")) as [g1 r1] eqn:K.
    apply (g_known_talk ch code true n) in K; [|exact P]. destruct K as (k & k1 & q & T & Q & NB).
    pose proof (told_playing _ _ _ _ _ _ T P) as P1.
    assert (Ca1 : g_cautious g1 = existsb is_end log) by (destruct T as (_ & -> & _); rewrite put_cautious; exact Ca).
    assert (Sm : forall kx, told g1 g1 c kx kx [] -> c_name kx = c_name k /\ c_aliases kx = c_aliases k).
    { intros kx (Gx & _). destruct T as (_ & -> & (_ & Nm & Al & _)). rewrite get_put in Gx.
      destruct (colour_eqb_spec c c); [|congruence]. injection Gx as <-. auto. }
    destruct r1 as [[|]|m x|kd m|e].
    + destruct (ask_move (chs ch) g1 c (gb_size s) true (str "gomill-genmove_ex") [colour_letter c; str "claim"]) as [g2 r2] eqn:A.
      apply (ask_move_talk code true n) in A; [|exact P1]. destruct A as (kx & k2 & evs & T2 & G & Ra). intros E; injection E as <- <-.
      apply (Ot g2 k k2 (q ++ evs)); [exact (told_trans _ _ _ _ _ _ _ _ _ _ T T2)| |rewrite <- Ca1; exact Ra].
      intros En. apply mt_can_claim; [reflexivity|rewrite Ca, En in Q; exact Q|].
      destruct (Sm kx) as [N1 N2]; [destruct T2 as (Gx & _); apply told_refl; [exact Gx|destruct (P1 c) as (k9 & G9 & F9); congruence]|].
      unfold party_of in *. rewrite <- N1, <- N2. apply G. congruence.
    + destruct (ask_move (chs ch) g1 c (gb_size s) false (str "genmove") [colour_letter c]) as [g2 r2] eqn:A.
      apply (ask_move_talk code true n) in A; [|exact P1]. destruct A as (kx & k2 & evs & T2 & G & Ra). intros E; injection E as <- <-.
      apply (Ot g2 k k2 (q ++ evs)); [exact (told_trans _ _ _ _ _ _ _ _ _ _ T T2)| |rewrite <- Ca1; exact Ra].
      intros En. apply mt_cannot_claim; [reflexivity|rewrite Ca, En in Q; exact Q|].
      destruct (Sm kx) as [N1 N2]; [destruct T2 as (Gx & _); apply told_refl; [exact Gx|destruct (P1 c) as (k9 & G9 & F9); congruence]|].
      unfold party_of in *. rewrite <- N1, <- N2. apply G. congruence.
    + elim (NB m x eq_refl).
    + rewrite Ca in Q. intros E; injection E as <- <-. apply (Ot g1 k k1 q); [exact T| |].
      * intros En. rewrite En in Q. apply mt_raised; [reflexivity|exact Q].
      * intros e Ee. injection Ee as <-. exact (query_raise _ _ _ _ _ _ Q eq_refl).
    + rewrite Ca in Q. intros E; injection E as <- <-. apply (Ot g1 k k1 q); [exact T| |].
      * intros En. rewrite En in Q. apply mt_raised; [reflexivity|exact Q].
      * intros x Ee. injection Ee as <-. exact (query_raise _ _ _ _ _ _ Q eq_refl).
  - cbv zeta. destruct (ask_move (chs ch) (gb_gc s) c (gb_size s) false (str "genmove") [colour_letter c]) as [g2 r2] eqn:A.
    apply (ask_move_talk code false n) in A; [|exact P]. destruct A as (k & k2 & evs & T2 & G & Ra). intros E; injection E as <- <-.
    apply (Ot g2 k k2 evs); [exact T2| |rewrite <- Ca; exact Ra].
    intros En. apply mt_plain; [reflexivity|]. apply G. congruence.
Qed.

Lemma ask_scores_talk code claims n scorers : forall (g g' : gctl (X * list cevent)) r, playing g -> ask_scores (chs ch) g scorers = (g', r) ->
  (forall c k, g_get c g = Some k -> exists k' evs, g_get c g' = Some k' /\ grew k k' evs /\
     score_talk (party_of k code claims n) (g_cautious g) (trace k) (scorer_count c scorers) evs) /\
  g_cautious g' = g_cautious g /\ g_code_b g' = g_code_b g /\ g_code_w g' = g_code_w g /\
  (forall e, to_res r = Err e -> fair_raise (g_cautious g) e).
Proof.
  induction scorers as [|c rest IH]; intros g g' r P.
  - cbn. intros E; injection E as <- <-. split; [|repeat split; discriminate].
    intros c k G. exists k, []. split; [exact G|]. split; [|constructor].
    destruct (P c) as (k2 & G2 & F2). rewrite G2 in G. injection G as <-. apply grew_refl, F2.
  - cbn [ask_scores]. destruct (maybe_send_command (chs ch) g c (str "final_score") []) as [g1 r1] eqn:M.
    apply (maybe_talk ch code claims n) in M; [|exact P]. destruct M as (k & k1 & evs & T & O & NB).
    pose proof (told_playing _ _ _ _ _ _ T P) as P1. pose proof T as (Gk & Eg & Gr).
    assert (C1 : g_cautious g1 = g_cautious g /\ g_code_b g1 = g_code_b g /\ g_code_w g1 = g_code_w g).
    { rewrite Eg. destruct c; auto. }
    destruct C1 as (C1 & C2 & C3).
    assert (Only : g1 = g' ->
      (forall c0 k0, g_get c0 g = Some k0 -> exists k' evs0, g_get c0 g' = Some k' /\ grew k0 k' evs0 /\
       score_talk (party_of k0 code claims n) (g_cautious g) (trace k0) (scorer_count c0 (c :: rest)) evs0) /\
      g_cautious g' = g_cautious g /\ g_code_b g' = g_code_b g /\ g_code_w g' = g_code_w g).
    { intros <-. split; [|auto].
      intros d kd Gd. rewrite Eg, get_put. unfold scorer_count. cbn [filter].
      destruct (colour_eqb_spec d c) as [->|N].
      - rewrite Gk in Gd. injection Gd as <-. exists k1, evs. split; [reflexivity|]. split; [exact Gr|].
        cbn [List.length]. rewrite <- (app_nil_r evs). exact (st_ask _ _ _ _ evs _ [] O (st_end _ _ _ _)).
      - exists kd, []. split; [exact Gd|]. split; [|constructor].
        destruct (P d) as (k2 & G2 & F2). rewrite G2 in Gd. injection Gd as <-. apply grew_refl, F2. }
    destruct r1 as [a|m x|kd m|e].
    + specialize (IH g1). destruct (ask_scores (chs ch) g1 rest) as [g2 r2]. specialize (IH g2 r2 P1 eq_refl).
      destruct IH as (I1 & I2 & I3 & I4 & I5). intros E. clear Only.
      assert (g2 = g') by (destruct r2; congruence). subst g'.
      split; [|split; [congruence|split; [congruence|split; [congruence|]]]].
      * intros d kd Gd. unfold scorer_count. cbn [filter]. destruct (colour_eqb_spec d c) as [->|N].
        -- rewrite Gk in Gd. injection Gd as <-.
           assert (G1 : g_get c g1 = Some k1) by (rewrite Eg, get_put; destruct (colour_eqb_spec c c); congruence).
           destruct (I1 c k1 G1) as (k2 & evs2 & G2 & Gr2 & St). exists k2, (evs ++ evs2). split; [exact G2|].
           split; [exact (grew_trans _ _ _ _ _ Gr Gr2)|]. cbn [List.length]. apply (st_ask _ _ _ _ evs _ _ O).
           destruct Gr as (Tr & Nm & Al & _). rewrite <- Tr. unfold party_of in *. rewrite <- Nm, <- Al, <- C1. exact St.
        -- assert (G1 : g_get d g1 = Some kd) by (rewrite Eg, get_put; destruct (colour_eqb_spec d c); congruence).
           rewrite <- C1. exact (I1 d kd G1).
      * intros e Er. rewrite <- C1. apply I5. destruct r2; injection E as <-; cbn in *; congruence.
    + elim (NB m x eq_refl).
    + intros E. destruct Only as (A & B & C & D); [congruence|]. split; [exact A|]. split; [exact B|]. split; [exact C|]. split; [exact D|].
      intros e Er. apply (optional_raise _ _ _ _ _ _ _ O). injection E as <- <-. cbn in *. congruence.
    + intros E. destruct Only as (A & B & C & D); [congruence|]. split; [exact A|]. split; [exact B|]. split; [exact C|]. split; [exact D|].
      intros e0 Er. apply (optional_raise _ _ _ _ _ _ _ O). injection E as <- <-. cbn in *. congruence.
Qed.

Lemma score_step b s log s' r : sound_log s log -> score_game (chs ch) pick b s = (s', r) ->
  sound_log s' (log ++ [EScore b r]).
Proof.
  intros H. pose proof (sound_playing _ _ H) as P. unfold score_game. destruct (gb_internal s) eqn:In.
  - intros E; injection E as <- <-. apply (sound_step s).
    + exact H.
    + apply same_game_refl.
    + reflexivity.
    + intros d k G. exists k, []. split; [exact G|]. split; [|cbn [segment]; unfold player_party; rewrite In; constructor].
      destruct (P d) as (k2 & G2 & F2). rewrite G2 in G. injection G as <-. apply grew_refl, F2.
    + intros e. cbn [raised]. destruct (score_from_position _ _ _ _ _) eqn:Sp; [discriminate|].
      intros Q; injection Q as <-. split; [reflexivity|]. apply ordinary_fair. exact (position_raise _ _ _ _ _ _ Sp).
  - unfold score_game_gtp. destruct (ask_scores (chs ch) (gb_gc s) (gb_scorers s)) as [g1 r1] eqn:A.
    intros E.
    assert (Ok : forall s2, gb_gc s2 = g1 -> same_game s (with_gc g1 s) -> same_game (with_gc g1 s) s2 ->
      (forall e, r = Err e -> to_res r1 = Err e \/ ordinary e) -> sound_log s2 (log ++ [EScore b r])).
    { intros s2 G2 Sm1 Sm2 Ra. destruct (ask_scores_talk [] false O _ _ _ _ P A) as (_ & Cc & Cb & Cw & Rr).
      apply (sound_step s).
      - exact H.
      - exact (same_game_trans _ _ _ Sm1 Sm2).
      - rewrite G2. exact Cc.
      - intros c k G. rewrite G2.
        destruct (ask_scores_talk (g_code c (gb_gc s)) (claim_allowed c s) (scorer_count c (gb_scorers s)) _ _ _ _ P A) as (T & _).
        destruct (T c k G) as (k' & evs & G' & Gr & St). exists k', evs. split; [exact G'|]. split; [exact Gr|].
        cbn [segment]. unfold player_party. rewrite In. cbn [pa_scores]. rewrite <- (sl_cautious _ _ H). exact St.
      - intros e. cbn [raised]. destruct r as [x|e1]; [discriminate|]. intros Q; injection Q as <-. split; [reflexivity|].
        destruct (Ra e1 eq_refl) as [R|R]; [|apply ordinary_fair; exact R]. rewrite <- (sl_cautious _ _ H). exact (Rr e1 R). }
    assert (Sm : same_game s (with_gc g1 s)).
    { destruct (ask_scores_talk [] false O _ _ _ _ P A) as (_ & Cc & Cb & Cw & Rr). unfold same_game. cbn. auto 10. }
    destruct r1 as [raw|m x|kd m|e]; cbn in E.
    + injection E as <- Er. apply Ok; [reflexivity|exact Sm|unfold same_game; cbn; auto 10|].
      intros e ->. right. destruct (gts_margin _) as [[m|neg|]|].
      * destruct (new_game_score _ _) as [z|z] eqn:N; cbn in Er; [discriminate|]. injection Er as <-.
        apply new_score_raise in N. subst. split; discriminate.
      * injection Er as <-. split; discriminate.
      * injection Er as <-. split; discriminate.
      * destruct (new_game_score _ _) as [z|z] eqn:N; cbn in Er; [discriminate|]. injection Er as <-.
        apply new_score_raise in N. subst. split; discriminate.
    + injection E as <- Er. apply Ok; [reflexivity|exact Sm|apply same_game_refl|]. intros e ->. left. cbn. congruence.
    + injection E as <- Er. apply Ok; [reflexivity|exact Sm|apply same_game_refl|]. intros e ->. left. cbn. congruence.
    + injection E as <- Er. apply Ok; [reflexivity|exact Sm|apply same_game_refl|]. intros e0 ->. left. cbn. congruence.
Qed.

(** The start: nothing said yet. *)
Lemma sound_start : playing (gb_gc s0) -> g_cautious (gb_gc s0) = false -> sound_log s0 [].
Proof.
  intros P C. constructor.
  - apply same_game_refl.
  - exact C.
  - intros c. destruct (P c) as (k & G & F). exists k, k, []. split; [exact G|]. split; [exact G|]. split; [apply grew_refl, F|]. constructor.
  - intros before ev rest e E. destruct before; discriminate E.
Qed.

Theorem run_sound fuel r r' s1 log out :
  playing (gb_gc s0) -> g_cautious (gb_gc s0) = false ->
  run (logged BG) fuel pick r (s0, []) = (r', (s1, log), out) -> sound_log s1 log.
Proof.
  intros P C R.
  assert (K : (fun x => sound_log (fst x) (snd x)) (s1, log)); [|exact K].
  apply (keeps_run (logged BG) (fun x => sound_log (fst x) (snd x))) in R; [exact R|..]; clear - After P C.
  - intros [s l] s' r. cbn [b_end logged]. unfold log1. cbn [fst snd BG gtp_backend b_end].
    destruct (end_game s) as [s2 r2] eqn:E. intros Q; injection Q as <- <-. intros H. exact (end_step _ _ _ _ H E).
  - intros c [s l] s' r. cbn [b_get_move logged]. unfold log1. cbn [fst snd BG gtp_backend b_get_move].
    destruct (get_move (chs ch) c s) as [s2 r2] eqn:E. intros Q; injection Q as <- <-. intros H. exact (move_step _ _ _ _ _ H E).
  - intros c m [s l] s' r. cbn [b_notify logged]. unfold log1. cbn [fst snd BG gtp_backend b_notify].
    destruct (notify_move (chs ch) c m s) as [s2 r2] eqn:E. intros Q; injection Q as <- <-. intros H. exact (notify_step _ _ _ _ _ _ H E).
  - intros c [s l] s' r. cbn [b_comment logged]. unfold log1. cbn [fst snd BG gtp_backend b_comment].
    destruct (get_last_move_comment (chs ch) sanitise c s) as [s2 r2] eqn:E. intros Q; injection Q as <- <-. intros H. exact (comment_step _ _ _ _ _ H E).
  - intros b [s l] s' r. cbn [b_score logged]. unfold log1. cbn [fst snd BG gtp_backend b_score].
    destruct (score_game (chs ch) pick b s) as [s2 r2] eqn:E. intros Q; injection Q as <- <-. intros H. exact (score_step _ _ _ _ _ H E).
  - intros f. cbn [b_after logged]. cbn [BG gtp_backend b_after]. intros F. apply map_some in F. destruct F as (f0 & Af & <-). intros c m b [s l] s' r. unfold log1. cbn [fst snd].
    destruct (f0 c m b s) as [s2 r2] eqn:E. intros Q; injection Q as <- <-. intros H. exact (after_step f0 _ _ _ _ _ _ _ Af H E).
  - exact (sound_start P C).
Qed.
End Game.
