(** Scoring by GTP (C34). *)
From Coq Require Import QArith.
From Verif Require Import Base Bytes PyStr Dict BoardModel BoardSpec CommonModel SgfPropsModel GameplayModel GameplaySpec
  GameplayRunProofs GameplayResultProofs GtpModel ControllerModel ControllerSpec GtpGameModel GtpGameSpec GtpScoreProofs.
Open Scope Z_scope.

Section Scoring.
Context {X : Type}.
Variable ch : colour -> channel X.

Lemma consulted_app (g g1 g2 : gctl X) a b ra rb : consulted ch g a ra g1 -> consulted ch g1 b rb g2 ->
  consulted ch g (a ++ b) (ra ++ rb) g2.
Proof.
  intros A B. induction B as [|b rb g3 c text g4 B IH M|b rb g3 c g4 B IH M].
  - rewrite !app_nil_r. exact A.
  - rewrite !app_assoc. exact (cs_answer _ _ _ _ _ _ _ _ IH M).
  - rewrite app_assoc. exact (cs_no_answer _ _ _ _ _ _ _ IH M).
Qed.
Lemma consulted_one (g g1 : gctl X) c r : maybe_send_command ch g c (str "final_score") [] = (g1, CRet r) ->
  consulted ch g [c] (match r with Some t => [(c, t)] | None => [] end) g1.
Proof.
  intros M. destruct r as [t|].
  - exact (cs_answer ch g [] [] g c t g1 (cs_nil _ _) M).
  - exact (cs_no_answer ch g [] [] g c g1 (cs_nil _ _) M).
Qed.

Lemma ask_scores_spec scorers : forall (g g' : gctl X) r, ask_scores ch g scorers = (g', r) ->
  match r with
  | CRet raw => consulted ch g scorers raw g'
  | _ => exists e, to_res r = Err e /\ consulting_failed ch g scorers g' e
  end.
Proof.
  induction scorers as [|c rest IH]; intros g g' r.
  - cbn. intros H; injection H as <- <-. constructor.
  - cbn [ask_scores]. destruct (maybe_send_command ch g c (str "final_score") []) as [g1 r1] eqn:M.
    destruct r1 as [a|m x|k m|e].
    + specialize (IH g1). destruct (ask_scores ch g1 rest) as [g2 r2]. specialize (IH g2 r2 eq_refl).
      pose proof (consulted_one _ _ _ _ M) as C1.
      destruct r2 as [l|m x|k m|e]; intros H; injection H as <- <-.
      * pose proof (consulted_app _ _ _ _ _ _ _ C1 IH) as C2. destruct a; exact C2.
      * destruct IH as (e & E & F). exists e. split; [exact E|].
        destruct F as (before & d & r3 & raw & g3 & r4 & -> & C2 & M2 & T). 
        exists (c :: before), d, r3, (match a with Some t => [(c, t)] | None => [] end ++ raw), g3, r4.
        split; [reflexivity|]. split; [exact (consulted_app _ _ _ _ _ _ _ C1 C2)|]. auto.
      * destruct IH as (e & E & F). exists e. split; [exact E|].
        destruct F as (before & d & r3 & raw & g3 & r4 & -> & C2 & M2 & T). 
        exists (c :: before), d, r3, (match a with Some t => [(c, t)] | None => [] end ++ raw), g3, r4.
        split; [reflexivity|]. split; [exact (consulted_app _ _ _ _ _ _ _ C1 C2)|]. auto.
      * destruct IH as (e0 & E & F). exists e0. split; [exact E|].
        destruct F as (before & d & r3 & raw & g3 & r4 & -> & C2 & M2 & T). 
        exists (c :: before), d, r3, (match a with Some t => [(c, t)] | None => [] end ++ raw), g3, r4.
        split; [reflexivity|]. split; [exact (consulted_app _ _ _ _ _ _ _ C1 C2)|]. auto.
    + intros H; injection H as <- <-. eexists. split; [reflexivity|].
      exists [], c, rest, [], g, (CBad m x). split; [reflexivity|]. split; [constructor|]. auto.
    + intros H; injection H as <- <-. eexists. split; [reflexivity|].
      exists [], c, rest, [], g, (CChan k m). split; [reflexivity|]. split; [constructor|]. auto.
    + intros H; injection H as <- <-. eexists. split; [reflexivity|].
      exists [], c, rest, [], g, (CExn e). split; [reflexivity|]. split; [constructor|]. auto.
Qed.

Lemma score_game_gtp_spec (g g' : gctl X) scorers r : score_game_gtp ch g scorers = (g', r) ->
  match r with
  | CRet (sc, raw) => consulted ch g scorers raw g' /\ exists l, opinions (map snd raw) l /\ fair_score l sc
  | _ => exists e, to_res r = Err e /\ consulting_failed ch g scorers g' e
  end.
Proof.
  unfold score_game_gtp. destruct (ask_scores ch g scorers) as [g1 r1] eqn:A. apply ask_scores_spec in A.
  destruct r1 as [raw|m x|k m|e]; intros H; injection H as <- <-;
    [|destruct A as (e0 & E & F); exists e0; split; [cbn in *; congruence|exact F]..].
  split; [exact A|]. eexists. split; [|apply combine_fair].
  rewrite <- (map_map snd read_score). apply keep_some_opinions.
Qed.

Lemma fair_score_unique l a b : fair_score l a -> fair_score l b -> a = b.
Proof.
  intros (A1 & A2 & A3) (B1 & B2 & B3). destruct l as [|[w m] rest]; [rewrite A1, B1; reflexivity|].
  destruct (existsb (fun x => negb (winner_eqb w (fst x))) rest) eqn:E.
  - apply existsb_exists in E. destruct E as (x & I & N).
    assert (D : w <> fst x) by (intros D; apply winner_eqb_iff in D; rewrite D in N; discriminate).
    rewrite (A2 (w, m) x), (B2 (w, m) x); cbn; auto.
  - assert (All : forall a, In a rest -> fst a = w).
    { intros x I. destruct (winner_eqb w (fst x)) eqn:D; [apply winner_eqb_iff in D; congruence|].
      assert (existsb (fun x => negb (winner_eqb w (fst x))) rest = true); [|congruence].
      apply existsb_exists. exists x. rewrite D. auto. }
    destruct (A3 w m rest eq_refl All) as (P1 & P2 & P3 & P4), (B3 w m rest eq_refl All) as (Q1 & Q2 & Q3 & Q4).
    destruct a as [aw am ad], b as [bw bm bd]. cbn in *. subst.
    destruct (existsb (fun x => negb (margin_eqb m (snd x))) rest) eqn:F.
    + apply existsb_exists in F. destruct F as (x & I & N).
      assert (D : ~ same_margin m (snd x)) by (intros D; apply margin_eqb_iff in D; rewrite D in N; discriminate).
      rewrite (P4 x I D), (Q4 x I D). reflexivity.
    + assert (S : forall a, In a rest -> same_margin m (snd a)).
      { intros x I. apply margin_eqb_iff. destruct (margin_eqb m (snd x)) eqn:D; [reflexivity|].
        assert (existsb (fun x => negb (margin_eqb m (snd x))) rest = true); [|congruence].
        apply existsb_exists. exists x. rewrite D. auto. }
      rewrite (P3 S), (Q3 S). reflexivity.
Qed.

Lemma opinions_unique raw l : opinions raw l -> forall l', opinions raw l' -> l = l'.
Proof.
  assert (D : forall s w m w' m', declares s w m -> declares s w' m' -> (w, m) = (w', m')).
  { intros s w m w' m' A B. apply read_score_declares in A, B. congruence. }
  induction 1 as [|text w m rest l A O IH|text rest l N O IH]; intros l' O'; inversion O' as [|t2 w2 m2 r2 l2 A2 O2|t2 r2 l2 N2 O2]; subst.
  - reflexivity.
  - rewrite (D _ _ _ _ _ A A2). f_equal. apply IH; assumption.
  - elim (N2 _ _ A).
  - elim (N _ _ A2).
  - apply IH; assumption.
Qed.

(** Two players who both answer. *)
Lemma two_opinions tb tw sc l : opinions [tb; tw] l -> fair_score l sc ->
  (forall w m w' m', declares tb w m -> declares tw w' m' -> w <> w' -> sc = mkGScore None None true) /\
  (forall w m m', declares tb w m -> declares tw w m' -> same_margin m m' -> sc = mkGScore w m false) /\
  (forall w m m', declares tb w m -> declares tw w m' -> ~ same_margin m m' -> sc = mkGScore w None false) /\
  (forall w m, declares tb w m -> (forall w' m', ~ declares tw w' m') -> sc = mkGScore w m false) /\
  (forall w m, declares tw w m -> (forall w' m', ~ declares tb w' m') -> sc = mkGScore w m false) /\
  ((forall w m, ~ declares tb w m) -> (forall w m, ~ declares tw w m) -> sc = mkGScore None None false).
Proof.
  intros O F.
  assert (K : forall l', opinions [tb; tw] l' -> fair_score l' sc) by (intros l' O'; rewrite (opinions_unique _ _ O' _ O); exact F).
  assert (One : forall w m, fair_score [(w, m)] sc -> sc = mkGScore w m false).
  { intros w m (_ & _ & H). destruct (H w m [] eq_refl) as (A & B & C & _); [intros ? []|].
    destruct sc as [x y z]. cbn in *. rewrite A, B, C; [reflexivity|intros ? []]. }
  split; [|split; [|split; [|split; [|split]]]].
  - intros w m w' m' A B N. destruct (K [(w, m); (w', m')]) as (_ & H & _); [repeat constructor; assumption|].
    apply (H (w, m) (w', m')); cbn; auto.
  - intros w m m' A B N. destruct (K [(w, m); (w, m')]) as (_ & _ & H); [repeat constructor; assumption|].
    destruct (H w m [(w, m')] eq_refl) as (P & Q & R & _); [intros a [<-|[]]; reflexivity|].
    destruct sc as [x y z]. cbn in *. rewrite P, Q, R; [reflexivity|]. intros a [<-|[]]; exact N.
  - intros w m m' A B N. destruct (K [(w, m); (w, m')]) as (_ & _ & H); [repeat constructor; assumption|].
    destruct (H w m [(w, m')] eq_refl) as (P & Q & _ & R); [intros a [<-|[]]; reflexivity|].
    destruct sc as [x y z]. cbn in *. rewrite P, Q, (R (w, m')); auto.
  - intros w m A N. apply One, K. constructor; [exact A|]. apply op_silent; [exact N|constructor].
  - intros w m A N. apply One, K. apply op_silent; [exact N|]. constructor; [exact A|constructor].
  - intros N M. destruct (K []) as (H & _); [apply op_silent; [exact N|apply op_silent; [exact M|constructor]]|]. auto.
Qed.

Lemma score_game_spec pick b (s s' : gbackend X) r : gb_internal s = false -> score_game ch pick b s = (s', r) ->
  (exists raw l sc, consulted ch (gb_gc s) (gb_scorers s) raw (gb_gc s') /\ gb_raw s' = raw /\
     opinions (map snd raw) l /\ fair_score l sc /\ shown_score sc r) \/
  (exists e, r = Err e /\ consulting_failed ch (gb_gc s) (gb_scorers s) (gb_gc s') e).
Proof.
  intros I. unfold score_game. rewrite I.
  destruct (score_game_gtp ch (gb_gc s) (gb_scorers s)) as [g1 r1] eqn:G. 
  pose proof G as G0. apply score_game_gtp_spec in G.
  destruct r1 as [[sc raw]|m x|k m|e].
  - intros H; injection H as <- <-. left. destruct G as (C & l & O & F). exists raw, l, sc.
    split; [exact C|]. split; [reflexivity|]. split; [exact O|]. split; [exact F|].
    unfold shown_score. assert (E : sc = combine_scores l) by (apply (fair_score_unique l); [exact F|apply combine_fair]).
    destruct (gts_margin sc) as [[m|neg|]|] eqn:M; [|reflexivity..|].
    + rewrite E in M. pose proof (combine_sensible _ _ O m M) as S. rewrite <- E in S.
      destruct (new_game_score_ok (gts_winner sc) (Some m)) as [H _]. rewrite (H S). reflexivity.
    + destruct (new_game_score_ok (gts_winner sc) None) as [H _]. rewrite H; [reflexivity|]. cbn. destruct (gts_winner sc); exact Logic.I.
  - intros H; injection H as <- <-. right. destruct G as (e & E & F). exists e. split; [cbn in *; congruence|exact F].
  - intros H; injection H as <- <-. right. destruct G as (e & E & F). exists e. split; [cbn in *; congruence|exact F].
  - intros H; injection H as <- <-. right. destruct G as (e0 & E & F). exists e0. split; [cbn in *; congruence|exact F].
Qed.
End Scoring.
