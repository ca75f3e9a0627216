(** Proofs about scores and results (C33), and about preparing a game. *)
From Coq Require Import QArith Qabs Lqa.
From Verif Require Import Base Bytes PyStr BoardModel BoardSpec BoardMainProofs
  CommonModel CommonSpec CommonProofs SgfPropsModel GameplayModel GameplaySpec GameplayProofs.
Open Scope Z_scope.

Lemma pow10_pos k : 0 < 10 ^ Z.of_nat k.
Proof. apply Z.pow_pos_nonneg; lia. Qed.

Lemma pow10_Q k : (0 < inject_Z (10 ^ Z.of_nat k))%Q.
Proof. change 0%Q with (inject_Z 0). rewrite <- Zlt_Qlt. apply pow10_pos. Qed.

Lemma value_int n : (value (num_int n) == inject_Z n)%Q.
Proof. unfold value, num_int. cbn [fst snd]. change (10 ^ Z.of_nat 0) with 1. field. Qed.

Lemma value_sub a b : (value (num_sub a b) == value a - value b)%Q.
Proof.
  unfold value, num_sub. cbn [fst snd]. rewrite Nat2Z.inj_add, Z.pow_add_r by lia.
  unfold Zminus. rewrite inject_Z_plus, inject_Z_opp, !inject_Z_mult.
  pose proof (pow10_Q (snd a)). pose proof (pow10_Q (snd b)). field. split; lra.
Qed.

Lemma value_neg a : (value (num_neg a) == - value a)%Q.
Proof.
  unfold value, num_neg. cbn [fst snd]. rewrite inject_Z_opp.
  pose proof (pow10_Q (snd a)). field. lra.
Qed.

Lemma value_sign a : (0 < fst a <-> (0 < value a)%Q) /\ (fst a < 0 <-> (value a < 0)%Q) /\ (fst a = 0 <-> (value a == 0)%Q).
Proof.
  pose proof (pow10_Q (snd a)) as P.
  assert (value a * inject_Z (10 ^ Z.of_nat (snd a)) == inject_Z (fst a))%Q as E.
  { unfold value. field. lra. }
  assert (forall n, (inject_Z n < 0)%Q <-> n < 0) as I1.
  { intros n. change 0%Q with (inject_Z 0). rewrite <- Zlt_Qlt. tauto. }
  assert (forall n, (0 < inject_Z n)%Q <-> 0 < n) as I2.
  { intros n. change 0%Q with (inject_Z 0). rewrite <- Zlt_Qlt. tauto. }
  rewrite <- I1, <- I2, <- E. clear E.
  assert (fst a = 0 <-> ~ fst a < 0 /\ ~ 0 < fst a) as Z0 by lia.
  assert (value a * inject_Z (10 ^ Z.of_nat (snd a)) == inject_Z (fst a))%Q as E.
  { unfold value. field. lra. }
  assert (0 < value a * inject_Z (10 ^ Z.of_nat (snd a)) <-> 0 < value a)%Q as A.
  { split; intros H.
    - destruct (Qlt_le_dec 0 (value a)) as [L|L]; [exact L|]. exfalso.
      assert (value a * inject_Z (10 ^ Z.of_nat (snd a)) <= 0)%Q by nra. lra.
    - nra. }
  assert (value a * inject_Z (10 ^ Z.of_nat (snd a)) < 0 <-> value a < 0)%Q as C.
  { split; intros H.
    - destruct (Qlt_le_dec (value a) 0) as [L|L]; [exact L|]. exfalso.
      assert (0 <= value a * inject_Z (10 ^ Z.of_nat (snd a)))%Q by nra. lra.
    - nra. }
  split; [exact A|]. split; [exact C|].
  rewrite Z0, <- I1, <- I2, <- E, A, C. split; intros H; [destruct H; lra|split; lra].
Qed.

Lemma C33_adjust_proof raw komi comp handicap :
  exists winner margin, adjust_score raw komi (Some comp) handicap = Ok (winner, margin) /\
    decides (inject_Z raw - value komi - inject_Z (deduction comp handicap)) winner (value margin).
Proof.
  unfold adjust_score.
  set (score := if negb (handicap =? 0) then _ else _).
  assert (value score == inject_Z raw - value komi - inject_Z (deduction comp handicap))%Q as E.
  { unfold score, deduction. destruct (handicap =? 0); cbn [negb].
    - rewrite value_sub, value_int. change (inject_Z 0) with 0%Q. lra.
    - destruct comp; rewrite ?value_sub, ?value_int; try lra. change (inject_Z 0) with 0%Q. lra. }
  destruct (value_sign score) as (P & N & Zr).
  unfold decides. destruct (Z.ltb_spec 0 (fst score)) as [L|L].
  - exists (Some Black), score. split; [reflexivity|]. left. apply P in L. rewrite E in L. auto.
  - destruct (Z.ltb_spec (fst score) 0) as [L2|L2].
    + exists (Some White), (num_neg score). split; [reflexivity|]. right; left. apply N in L2. rewrite E in L2.
      split; [exact L2|]. split; [reflexivity|]. rewrite value_neg, E. lra.
    + exists None, (num_int 0). split; [reflexivity|]. right; right.
      assert (fst score = 0) as L3 by lia. apply Zr in L3. rewrite E in L3. split; [exact L3|].
      split; [reflexivity|]. rewrite value_int. reflexivity.
Qed.

Lemma decides_sensible q w m : decides q w (value m) -> sensible w (Some m).
Proof.
  intros [(A & -> & B)|[(A & -> & B)|(A & -> & B)]]; cbn; [rewrite B; lra| rewrite B; lra|exact B].
Qed.

Lemma new_game_score_ok w m :
  (sensible w m -> new_game_score w m = Ok (mkScore w m false)) /\ (~ sensible w m -> new_game_score w m = Err ValueError).
Proof.
  unfold new_game_score, sensible. destruct w as [c|], m as [m|]; try tauto;
    destruct (value_sign m) as (P & N & Zr); destruct (Z.eqb_spec (fst m) 0) as [L|L].
  - split; [|tauto]. intros H. apply Zr in L. lra.
  - destruct (Z.ltb_spec (fst m) 0) as [L2|L2].
    + split; [|tauto]. intros H. apply N in L2. lra.
    + split; [tauto|]. intros H. exfalso. apply H. apply P. lia.
  - split; [tauto|]. intros H. exfalso. apply H. apply Zr. exact L.
  - split; [|tauto]. intros H. exfalso. apply L. apply Zr. exact H.
Qed.

Lemma result_from_score_ok w m d :
  (sensible w m -> exists r, result_from_score w m d = Ok r /\ scored_result w m r /\ r_detail r = d) /\
  (~ sensible w m -> result_from_score w m d = Err ValueError).
Proof.
  unfold result_from_score, sensible, scored_result. destruct w as [c|], m as [m|];
    try (destruct (value_sign m) as (P & N & Zr); destruct (Z.ltb_spec (fst m) 0) as [L2|L2];
         destruct (Z.eqb_spec (fst m) 0) as [L|L]; try lia); split; intros H; try tauto;
    try (eexists; split; [reflexivity|]; destruct c; cbn; auto; fail);
    try (eexists; split; [reflexivity|]; cbn; auto; fail).
  - apply N in L2. lra.
  - apply Zr in L. lra.
  - exfalso. apply H. apply P. lia.
Qed.

(** Scoring a position. *)
Lemma C33_position_proof pick s b komi comp handicap :
  reachable s b ->
  exists raw g r, area_score_spec s (view b) raw /\
    score_from_position pick b komi (Some comp) handicap = Ok g /\
    decides (inject_Z raw - value komi - inject_Z (deduction comp handicap)) (gs_winner g)
            (match gs_margin g with Some m => value m | None => 0 end) /\
    result_from_game_score g = Ok r /\ scored_result (gs_winner g) (gs_margin g) r /\
    gs_margin g <> None /\ r_detail r = None.
Proof.
  intros Rb. destruct (C06_proof pick s b Rb) as (raw & E1 & Sp).
  destruct (C33_adjust_proof raw komi comp handicap) as (w & m & E2 & D).
  assert (sensible w (Some m)) as Se by (eapply decides_sensible; exact D).
  destruct (result_from_score_ok w (Some m) None) as [K _]. destruct (K Se) as (r & K1 & K2 & K3).
  exists raw, (mkScore w (Some m) false), r. split; [exact Sp|]. split.
  - unfold score_from_position. rewrite E1. cbn [bind]. rewrite E2. cbn [bind].
    apply (new_game_score_ok w (Some m)). exact Se.
  - cbn [gs_winner gs_margin]. split; [exact D|]. split; [exact K1|]. split; [exact K2|]. split; [discriminate|exact K3].
Qed.

(** ** Preparing a game *)

Section Prepare.
Context {S : Type}.
Variable B : backend S.

Lemma prepare_ok size komi limit s r' s' :
  prepare B (new_runner size komi limit) s = (r', s', Ok tt) ->
  r' = with_state 1 (new_runner size komi limit) /\ b_start B size komi s = (s', Ok tt) /\ ready r' size limit None.
Proof.
  unfold prepare. cbn [ru_state new_runner Z.eqb negb ru_size ru_komi].
  destruct (b_start B size komi s) as [s1 [[]|e]]; [|discriminate].
  intros H. injection H as <- <-. split; [reflexivity|]. split; [reflexivity|].
  unfold ready; cbn. auto 10.
Qed.

Lemma set_handicap_free_ok size limit r s n r' s' :
  ready r size limit None -> set_handicap B r s n true = (r', s', Ok tt) ->
  ru_state r = 1 /\ 2 <= n <= size * size - 1 /\
  exists pts s1, b_free B n s = (s1, Ok pts) /\ b_notify_free B pts s1 = (s', Ok tt) /\
    ready r' size limit (Some pts) /\ ru_handicap r' = Some n.
Proof.
  intros (Q1 & Q2 & Q3 & Q4 & Q5 & Q6 & Q7 & Q8) H. unfold set_handicap in H.
  destruct (Z.eqb_spec (ru_state r) 1) as [E|E]; cbn [negb] in H; [|discriminate].
  destruct ((2 <=? n) && (n <=? max_free_handicap (ru_size r))) eqn:K; cbn [negb] in H; [|discriminate].
  apply andb_prop in K. destruct K as [K1 K2]. apply Z.leb_le in K1, K2. unfold max_free_handicap in K2. rewrite Q1 in K2.
  split; [exact E|]. split; [lia|].
  destruct (b_free B n s) as [s1 [pts|e]]; [|discriminate].
  destruct (b_notify_free B pts s1) as [s2 [[]|e]] eqn:NF; [|discriminate].
  injection H as <- <-. exists pts, s1. split; [reflexivity|]. split; [exact NF|].
  split; [|reflexivity]. unfold ready; cbn. rewrite Q1, Q2, Q4, Q5, Q6, Q7. auto 10.
Qed.

Lemma set_handicap_fixed_ok size limit r s n r' s' :
  ready r size limit None -> set_handicap B r s n false = (r', s', Ok tt) ->
  ru_state r = 1 /\
  exists pts s1, handicap_points n size = Ok pts /\
    b_notify_fixed B Black n pts s = (s1, Ok tt) /\ b_notify_fixed B White n pts s1 = (s', Ok tt) /\
    ready r' size limit (Some pts) /\ ru_handicap r' = Some n.
Proof.
  intros (Q1 & Q2 & Q3 & Q4 & Q5 & Q6 & Q7 & Q8) H. unfold set_handicap in H.
  destruct (Z.eqb_spec (ru_state r) 1) as [E|E]; cbn [negb] in H; [|discriminate].
  rewrite Q1 in H. split; [exact E|].
  destruct (handicap_points n size) as [pts|e] eqn:HP; [|discriminate].
  destruct (b_notify_fixed B Black n pts s) as [s1 [[]|e]] eqn:NF1; [|discriminate].
  destruct (b_notify_fixed B White n pts s1) as [s2 [[]|e]] eqn:NF; [|discriminate].
  injection H as <- <-. exists pts, s1. split; [reflexivity|]. split; [exact NF1|]. split; [exact NF|].
  split; [|reflexivity]. unfold ready; cbn. rewrite Q1, Q2, Q4, Q5, Q6, Q7. auto 10.
Qed.

(** The order of operations is enforced. *)
Lemma wrong_state pick fuel r s n fr :
  (ru_state r <> 0 -> prepare B r s = (r, s, Err GameRunnerStateError)) /\
  (ru_state r <> 1 -> set_handicap B r s n fr = (r, s, Err GameRunnerStateError)) /\
  (ru_state r <> 1 -> ru_state r <> 2 -> run B fuel pick r s = (r, s, Err GameRunnerStateError)).
Proof.
  split; [|split].
  - intros H. unfold prepare. destruct (Z.eqb_spec (ru_state r) 0); [congruence|reflexivity].
  - intros H. unfold set_handicap. destruct (Z.eqb_spec (ru_state r) 1); [congruence|reflexivity].
  - intros H1 H2. unfold run. destruct (Z.eqb_spec (ru_state r) 1); [congruence|].
    destruct (Z.eqb_spec (ru_state r) 2); [congruence|reflexivity].
Qed.

(** Handicap stones off the board (from a faulty backend) stop the run before it starts. *)
Lemma off_board_stones pick fuel r s size limit pts :
  2 <= size -> ready r size limit (Some pts) -> ~ (forall p, In p pts -> on_board size p) ->
  run B fuel pick r s = (r, s, Err IndexError).
Proof.
  intros S2 (Q1 & Q2 & Q3 & Q4 & Q5 & Q6 & Q7 & Q8) NO. unfold run, make_game.
  assert ((ru_state r =? 1) || (ru_state r =? 2) = true) as -> by (destruct Q8 as [-> | ->]; reflexivity).
  cbn [negb]. rewrite Q1, Q3.
  assert (exists b, new_board size = Ok b) as (b & NB).
  { unfold new_board. destruct (Z.ltb_spec size 2); [lia|]. eauto. }
  rewrite NB. cbn [bind]. destruct pts as [|p pts]; [exfalso; apply NO; intros q []|].
  destruct (C03_setup_proof pick size b (p :: pts) [] [] (reach_new size b NB)) as [_ K].
  rewrite K; [reflexivity|]. intros H. apply NO. intros q I. apply H. rewrite !app_nil_r. exact I.
Qed.

End Prepare.

(** ** The text of a margin *)
From Verif Require Import SgfValueProofs.

Lemma normalise_value m k : (value (normalise_dec m k) == value (m, k))%Q /\
  (snd (normalise_dec m k) = O \/ fst (normalise_dec m k) mod 10 <> 0).
Proof.
  revert m; induction k as [|k IH]; intros m; cbn [normalise_dec].
  - split; [reflexivity|left; reflexivity].
  - destruct (Z.eqb_spec (m mod 10) 0) as [E|E].
    + destruct (IH (m / 10)) as [A C]. split; [|exact C]. rewrite A. unfold value. cbn [fst snd].
      assert (m = m / 10 * 10) as Em by (pose proof (Z.div_mod m 10 ltac:(lia)); lia).
      rewrite Em at 2. rewrite Nat2Z.inj_succ, Z.pow_succ_r by lia. rewrite !inject_Z_mult.
      pose proof (pow10_Q k). change (inject_Z 10) with (10 # 1)%Q. field. lra.
    + split; [reflexivity|right; exact E].
Qed.

Lemma format_float_reads m : exists x, py_float (format_float m) = Ok x /\ (value x == value m)%Q.
Proof.
  destruct (normalise_value (fst m) (snd m)) as [V C].
  assert (value (fst m, snd m) == value m)%Q as V0 by (destruct m; reflexivity).
  unfold format_float. destruct (normalise_dec (fst m) (snd m)) as [n [|k]] eqn:E; cbn [fst snd] in C.
  - destruct (str_int_nonneg (Z.abs n) ltac:(lia)) as (V1 & D & N).
    pose proof (py_float_dec (n <? 0) (str_int (Z.abs n)) [] N D eq_refl) as P. rewrite !app_nil_r in P.
    rewrite str_int_abs, P. cbn [List.length normalise_dec]. rewrite V1.
    assert ((if n <? 0 then - Z.abs n else Z.abs n) = n) as -> by (destruct (Z.ltb_spec n 0); lia).
    eexists. split; [reflexivity|]. rewrite V. exact V0.
  - destruct C as [C|C]; [discriminate|].
    set (P := 10 ^ Z.of_nat (S k)) in *. assert (0 < P) as PP by (apply Z.pow_pos_nonneg; lia).
    pose proof (Z.mod_pos_bound (Z.abs n) P PP) as MB.
    pose proof (Z.div_mod (Z.abs n) P ltac:(lia)) as DM.
    assert (0 <= Z.abs n / P) as DP by (apply Z.div_pos; lia).
    destruct (str_int_nonneg (Z.abs n / P) DP) as (V1 & D1 & N1).
    destruct (zfill_exact (S k) (Z.abs n mod P) MB ltac:(lia)) as (L2 & D2 & V2).
    set (ip := str_int (Z.abs n / P)) in *. set (fp := zfill (S k) (str_int (Z.abs n mod P))) in *.
    pose proof (py_float_dec (n <? 0) ip fp N1 D1 D2) as PF.
    assert (match fp with [] => [] | _ => str "." ++ fp end = str "." ++ fp) as EF.
    { destruct fp; [discriminate|reflexivity]. }
    rewrite EF in PF. rewrite PF. rewrite digits_val_app, V1, V2, L2. fold P.
    assert ((if n <? 0 then - (Z.abs n / P * P + Z.abs n mod P) else Z.abs n / P * P + Z.abs n mod P) = n) as ->.
    { destruct (Z.ltb_spec n 0); lia. }
    rewrite mod10_abs by auto. eexists. split; [reflexivity|]. rewrite V. exact V0.
Qed.
