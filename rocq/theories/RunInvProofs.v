(** What every run of a game preserves, for any backend: an invariant of the backend's state, and a
    property of the comments. *)
From Verif Require Import Base Bytes PyStr BoardModel CommonModel GameplayModel.

Definition keeps_state {S A} (P : S -> Prop) (f : S -> S * res A) : Prop := forall s, P s -> P (fst (f s)).

Record well_kept {S} (B : backend S) (P : S -> Prop) (Q : bytes -> Prop) : Prop := mkKept {
  wk_end : keeps_state P (b_end B);
  wk_move : forall c, keeps_state P (b_get_move B c);
  wk_notify : forall c m, keeps_state P (b_notify B c m);
  wk_score : forall b, keeps_state P (b_score B b);
  wk_comment : forall c, keeps_state P (b_comment B c);
  wk_after : forall f c m b, b_after B = Some f -> keeps_state P (f c m b);
  wk_text : forall c s t, P s -> snd (b_comment B c s) = Ok (Some t) -> Q t
}.

(** A result with nothing that comes from a player, unless it is a forfeit. *)
Definition stock_detail (x : result) : Prop :=
  r_forfeit x = false ->
  match r_detail x with
  | None => True
  | Some d => In d [str "players disagreed"; str "no score reported"; str "unknown margin"; str "hit move limit"; str "claim"]
  end.

Record well_commented (Q : bytes -> Prop) (r : runner) : Prop := mkCommented {
  wc_moves : forall m t, In (m, Some t) (ru_moves r) -> Q t;
  wc_final : forall c t, ru_final r = Some (c, t) -> Q t;
  wc_result : forall x, ru_result r = Some x -> stock_detail x
}.

Section Inv.
Context {S : Type} (B : backend S) (P : S -> Prop) (Q : bytes -> Prop).
Hypothesis K : well_kept B P Q.

Lemma over_kept g s g' s' r : P s -> set_over (over_callback B) g s = (g', s', r) -> P s'.
Proof.
  intros H. unfold set_over, over_callback. pose proof (wk_end _ _ _ K s H) as E. destruct (b_end B s) as [s1 x]. intros X.
  injection X as <- <- <-. exact E.
Qed.

Lemma forfeit_kept g s c why g' s' r : P s -> record_forfeit_by (over_callback B) g s c why = (g', s', r) -> P s'.
Proof. intros H. unfold record_forfeit_by. destruct (gm_over g); [intros X; injection X as <- <- <-; exact H|apply over_kept; exact H]. Qed.
Lemma resign_kept g s c g' s' r : P s -> record_resignation_by (over_callback B) g s c = (g', s', r) -> P s'.
Proof. intros H. unfold record_resignation_by. destruct (gm_over g); [intros X; injection X as <- <- <-; exact H|apply over_kept; exact H]. Qed.
Lemma claim_kept g s c g' s' r : P s -> record_claim_by (over_callback B) g s c = (g', s', r) -> P s'.
Proof. intros H. unfold record_claim_by. destruct (gm_over g); [intros X; injection X as <- <- <-; exact H|apply over_kept; exact H]. Qed.

Lemma after_kept g s c g' s' r : P s -> after_move (over_callback B) g s c = (g', s', r) -> P s'.
Proof.
  intros H. unfold after_move. cbv zeta. destruct (_ =? 2); [apply over_kept; exact H|].
  destruct (match _ with None => false | Some _ => _ end); [apply over_kept; exact H|]. intros X. injection X as <- <- <-. exact H.
Qed.

Lemma move_kept pick g s c m g' s' r : P s -> record_move (over_callback B) pick g s c m = (g', s', r) -> P s'.
Proof.
  intros H. unfold record_move. destruct (gm_over g); [intros X; injection X as <- <- <-; exact H|].
  destruct (negb _); [intros X; injection X as <- <- <-; exact H|]. destruct m as [[row col]|]; [|apply after_kept; exact H].
  cbv zeta. destruct (opoint_eqb (row, col) (gm_ko g)).
  - match goal with |- context [format_vertex ?v] => destruct (format_vertex v) end; [apply forfeit_kept; exact H|]. intros X; injection X as <- <- <-; exact H.
  - destruct (play pick (gm_board g) row col c) as [b' [ko|[]]]; try (intros X; injection X as <- <- <-; exact H); [apply after_kept; exact H|].
    match goal with |- context [format_vertex ?v] => destruct (format_vertex v) end; [apply forfeit_kept; exact H|]. intros X; injection X as <- <- <-; exact H.
Qed.

Lemma set_final_commented c cm r : well_commented Q r -> (forall t, cm = Some t -> Q t) -> well_commented Q (set_final c cm r).
Proof.
  intros [A D E] H. destruct cm as [t|]; [|constructor; auto]. constructor; cbn [set_final ru_moves ru_final ru_result]; auto.
  intros c' t' X. injection X as <- <-. auto.
Qed.

Lemma ended_kept r c o : (match o with (g, s, x) => P s end) -> well_commented Q r ->
  match ended_without_move B r c o with (r', g', s', x) => P s' /\ well_commented Q r' end.
Proof.
  destruct o as [[g s] [u|e]]; intros H W; cbn [ended_without_move]; [|auto].
  pose proof (wk_comment _ _ _ K c s H) as C. pose proof (wk_text _ _ _ K c s) as T. destruct (b_comment B c s) as [s1 [cm|e]]; cbn [fst snd] in *; [|auto].
  split; [exact C|]. apply set_final_commented; [exact W|]. intros t ->. auto.
Qed.

Lemma do_move_kept pick r g s c r' g' s' x : P s -> well_commented Q r -> do_move B pick r g s c = (r', g', s', x) -> P s' /\ well_commented Q r'.
Proof.
  intros H W. unfold do_move. pose proof (wk_move _ _ _ K c s H) as M. destruct (b_get_move B c s) as [s1 [a|e]]; cbn [fst] in M.
  2:{ intros X. injection X as <- <- <- <-. auto. }
  destruct a as [m|why| | |].
  - destruct (record_move (over_callback B) pick g s1 c m) as [[g2 s2] [u|e]] eqn:R; pose proof (move_kept _ _ _ _ _ _ _ _ M R) as M2.
    2:{ intros X. injection X as <- <- <- <-. auto. }
    pose proof (wk_comment _ _ _ K c s2 M2) as C. pose proof (wk_text _ _ _ K c s2) as T. destruct (b_comment B c s2) as [s3 [cm|e]]; cbn [fst snd] in *.
    2:{ intros X. injection X as <- <- <- <-. auto. }
    assert (forall t, cm = Some t -> Q t) as T' by (intros t ->; auto).
    destruct (gm_forfeited g2).
    { intros X. injection X as <- <- <- <-. split; [exact C|]. apply set_final_commented; auto. }
    pose proof (wk_notify _ _ _ K (opponent_of c) m s3 C) as N. destruct (b_notify B (opponent_of c) m s3) as [s4 [st|e]]; cbn [fst] in N.
    2:{ intros X. injection X as <- <- <- <-. auto. }
    assert (forall y : runner * ggame * S * res unit, y = (
      let forfeit := if gm_over g2 then None
                     else match st with SReject msg => Some (c, msg) | SError msg => Some (opponent_of c, msg) | _ => None end in
      match forfeit with
      | Some (loser, msg) =>
          match record_forfeit_by (over_callback B) g2 s4 loser msg with
          | (g5, s5, Err e) => (r, g5, s5, Err e)
          | (g5, s5, Ok _) => (set_final c cm r, g5, s5, Ok tt)
          end
      | None =>
          let r5 := add_move (c, m, cm) r in
          match b_after B with
          | None => (r5, g2, s4, Ok tt)
          | Some f => let (s5, x) := f c m (gm_board g2) s4 in (r5, g2, s5, x)
          end
      end) -> match y with (r', g', s', x) => P s' /\ well_commented Q r' end) as G.
    { intros y ->. cbv zeta. destruct (if gm_over g2 then None else _) as [[loser msg]|].
      - destruct (record_forfeit_by (over_callback B) g2 s4 loser msg) as [[g5 s5] [u'|e]] eqn:F; pose proof (forfeit_kept _ _ _ _ _ _ _ N F) as F'; auto.
        split; [exact F'|]. apply set_final_commented; auto.
      - assert (well_commented Q (add_move (c, m, cm) r)) as W'.
        { destruct W as [A D E]. constructor; cbn [add_move ru_moves ru_final ru_result]; auto. intros m' t I. apply in_app_or in I as [I|[I|[]]]; eauto.
          apply T'. congruence. }
        pose proof (wk_after _ _ _ K) as AF. destruct (b_after B) as [f|]; [|auto]. specialize (AF f c m (gm_board g2) eq_refl s4 N).
        destruct (f c m (gm_board g2) s4) as [s5 x']. auto. }
    destruct st; intros X; try (specialize (G _ (eq_sym X)); exact G). injection X as <- <- <- <-. auto.
  - intros X. pose proof (ended_kept r c (record_forfeit_by (over_callback B) g s1 c why)) as E. rewrite X in E. apply E; [|exact W].
    destruct (record_forfeit_by (over_callback B) g s1 c why) as [[g2 s2] y] eqn:F. eapply forfeit_kept; eauto.
  - intros X. pose proof (ended_kept r c (record_resignation_by (over_callback B) g s1 c)) as E. rewrite X in E. apply E; [|exact W].
    destruct (record_resignation_by (over_callback B) g s1 c) as [[g2 s2] y] eqn:F. eapply resign_kept; eauto.
  - intros X. pose proof (ended_kept r c (record_claim_by (over_callback B) g s1 c)) as E. rewrite X in E. apply E; [|exact W].
    destruct (record_claim_by (over_callback B) g s1 c) as [[g2 s2] y] eqn:F. eapply claim_kept; eauto.
  - intros X. injection X as <- <- <- <-. auto.
Qed.

Lemma from_score_stock w m d x : result_from_score w m d = Ok x -> r_detail x = d /\ r_forfeit x = false.
Proof.
  unfold result_from_score. destruct (match m with Some n => fst n <? 0 | None => false end); [discriminate|].
  destruct w, m as [n|]; try destruct (fst n =? 0); intros E; try discriminate; assert (X := E); injection X as <-; auto.
Qed.

Lemma set_result_kept r g s r' s' x : P s -> well_commented Q r -> set_result B r g s = (r', s', x) -> P s' /\ well_commented Q r'.
Proof.
  intros H W. unfold set_result.
  assert (forall r y, well_commented Q r -> stock_detail y -> well_commented Q (with_result y r)) as WR.
  { intros r0 y [A D E] SD. constructor; cbn [with_result ru_moves ru_final ru_result]; auto. intros z Z. injection Z as <-. exact SD. }
  destruct (gm_passed_out g).
  - pose proof (wk_score _ _ _ K (gm_board g) s H) as C. destruct (b_score B (gm_board g) s) as [s1 [sc|e]]; cbn [fst] in C.
    2:{ intros X. injection X as <- <- <-. auto. }
    assert (well_commented Q (with_score sc r)) as W' by (destruct W; constructor; auto).
    destruct (result_from_game_score sc) as [y|e] eqn:E; intros X; injection X as <- <- <-; [|auto]. split; [exact C|]. apply WR; [exact W'|].
    apply from_score_stock in E as (D & F). intros _. rewrite D. unfold score_detail. destruct (gs_disagreed sc); [cbn; auto|].
    destruct (gs_margin sc), (gs_winner sc); cbn; auto.
  - destruct (result_from_unscored g) as [y|e] eqn:E; intros X; injection X as <- <- <-; [|auto]. split; [exact H|]. apply WR; [exact W|].
    unfold result_from_unscored in E. destruct (negb (gm_over g)); [discriminate|]. destruct (gm_passed_out g); [discriminate|].
    destruct (gm_hit_limit g); [assert (Z := E); injection Z as <-; intros _; cbn; auto|].
    destruct (gm_resigned g); [assert (Z := E); injection Z as <-; intros _; cbn; auto|].
    destruct (gm_claimed g); [assert (Z := E); injection Z as <-; intros _; cbn; auto 8|].
    destruct (gm_forfeited g); [assert (Z := E); injection Z as <-; intros Z; discriminate|discriminate].
Qed.

Lemma run_loop_kept pick fuel : forall r g s r' s' x, P s -> well_commented Q r -> run_loop B fuel pick r g s = (r', s', x) -> P s' /\ well_commented Q r'.
Proof.
  induction fuel as [|fuel IH]; intros r g s r' s' x H W; cbn [run_loop]; (destruct (gm_over g); [apply set_result_kept; auto|]).
  - intros X. injection X as <- <- <-. auto.
  - destruct (gm_next g) as [c|]; [|intros X; injection X as <- <- <-; auto].
    destruct (do_move B pick r g s c) as [[[r1 g1] s1] [u|e]] eqn:D; destruct (do_move_kept _ _ _ _ _ _ _ _ _ H W D) as (H' & W').
    + apply IH; auto.
    + intros X. injection X as <- <- <-. auto.
Qed.

Lemma run_kept pick fuel r s r' s' x : P s -> well_commented Q r -> run B fuel pick r s = (r', s', x) -> P s' /\ well_commented Q r'.
Proof.
  intros H W. unfold run. destruct (negb _); [intros X; injection X as <- <- <-; auto|].
  destruct (make_game pick r); [|intros X; injection X as <- <- <-; auto]. apply run_loop_kept; [exact H|]. destruct W. constructor; auto.
Qed.
End Inv.
