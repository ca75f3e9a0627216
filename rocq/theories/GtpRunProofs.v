(** Whole games between GTP engines (C48). *)
From Coq Require Import QArith.
From Verif Require Import Base Bytes PyStr Dict BoardModel BoardSpec CommonModel SgfPropsModel GameplayModel GameplaySpec
  GameplayRunProofs GtpModel ControllerModel ControllerSpec ControllerProofs GtpGameModel GtpGameSpec GtpTalkProofs GtpDialogueProofs.
Open Scope Z_scope.

Section Whole.
Context {X : Type}.
Variable ch : colour -> channel X.
Variable sanitise : bytes -> bytes.
Variable pick : nat -> nat.
Notation gb := (gbackend (X * list cevent)).
Variable after : option (colour -> gmove -> board -> gb -> gb * res unit).
Hypothesis Harmless : harmless after.

Notation BK := (gtp_backend (fun c => recorded (ch c)) sanitise pick after).

Lemma reached_fine c k : reached (ch c) k -> c_closed k = false -> fine k.
Proof.
  intros R C. split; [exact C|]. pose proof (bad_iff (ch c) k R) as B. unfold broken.
  destruct (c_bad k), (texts low_level_error (trace k)) as [|t l]; try reflexivity.
  - destruct B as [B _]. elim (B eq_refl). reflexivity.
  - destruct B as [_ B]. discriminate B. discriminate.
Qed.
Lemma engaged_playing s : engaged ch s -> playing (gb_gc s) /\ g_cautious (gb_gc s) = false.
Proof.
  intros [C E]. split; [|exact C]. intros c. destruct (E c) as (k & G & R & O). exists k. split; [exact G|exact (reached_fine c k R O)].
Qed.

Lemma run_dialogue s0 fuel r r' s1 log out : engaged ch s0 ->
  run (logged BK) fuel pick r (s0, []) = (r', (s1, log), out) ->
  sound_log sanitise s0 s1 log.
Proof.
  intros E R. destruct (engaged_playing _ E) as [P C].
  exact (run_sound ch sanitise pick after Harmless s0 fuel r r' s1 log out P C R).
Qed.

Lemma filter_existsb {A} (f : A -> bool) l : existsb f l = false -> filter f l = [].
Proof. induction l as [|x l IH]; cbn; [reflexivity|]. destruct (f x); [discriminate|exact IH]. Qed.

Lemma run_raises s0 fuel r r' s1 log e size limit stones : engaged ch s0 ->
  2 <= size <= 25 -> ready r size limit stones ->
  (forall p, In p (match stones with Some l => l | None => [] end) -> on_board size p) ->
  run (logged BK) fuel pick r (s0, []) = (r', (s1, log), Err e) ->
  e <> bad_gtp /\ (e = channel_error -> filter is_end log = []).
Proof.
  intros E Sz Rd St R. pose proof (run_dialogue _ _ _ _ _ _ _ E R) as D.
  apply (run_correct BK pick fuel r s0 r' s1 log (Err e) size limit stones Sz Rd St) in R.
  destruct R as (pos & _ & _ & y & _ & _ & [Bo|(Ef & Q & _)]).
  - destruct Bo as (before & ev & El & Ev).
    assert (F : fair_raise (existsb is_end before) e /\ is_end ev = false \/ ordinary e).
    { destruct ev as [c [[[p|]| | | |]|x]|[u|x]|c [o|x]|c m [[]|x]|c m b [u|x]|b [g|x]|n k [u|x]|n [u|x]|pts [u|x]|c n pts [u|x]];
        try contradiction;
        try (subst e; left; destruct (sl_raise _ _ _ _ D before _ [] x El eq_refl); auto; fail);
        try (subst e; right; split; discriminate).
      - destruct Ev as [_ ->]. right; split; discriminate.
      - destruct Ev as [_ ->]. right; split; discriminate. }
    destruct F as [[[F1 F2] NE]|[F1 F2]]; [|split; [exact F1|intros; contradiction]].
    split; [exact F1|]. intros Ec. apply filter_existsb. rewrite El, existsb_app. cbn. rewrite NE, (F2 Ec). reflexivity.
  - subst e. split; [discriminate|discriminate].
Qed.

Lemma fair_ordinary e : fair_raise true e -> ordinary e.
Proof. intros [A B]. split; [exact A|]. intros H. discriminate (B H). Qed.

Lemma cpu_one code claims n (g g' : gctl (X * list cevent)) c r : playing g -> g_cautious g = true ->
  cpu_time (chs ch) c g = (g', r) ->
  exists k k' evs, told g g' c k k' evs /\
    (forall t e, r = CRet (t, e) -> cpu_talk (party_of k code claims n) (trace k) evs t e) /\
    (forall e, to_res r = Err e -> ordinary e).
Proof.
  intros P Ca. unfold cpu_time.
  destruct (g_known_command (chs ch) g c (str "gomill-cpu_time")) as [g1 r1] eqn:K.
  apply (g_known_talk ch code claims n) in K; [|exact P]. destruct K as (k & k1 & q & T & Q & NB). rewrite Ca in Q.
  pose proof (told_playing _ _ _ _ _ _ T P) as P1.
  assert (Ca1 : g_cautious g1 = true) by (destruct T as (_ & -> & _); rewrite put_cautious; exact Ca).
  destruct r1 as [[|]|m x|kd m|e].
  - destruct (maybe_send_command (chs ch) g1 c (str "gomill-cpu_time") []) as [g2 r2] eqn:M.
    apply (maybe_talk ch code claims n) in M; [|exact P1]. destruct M as (kx & k2 & evs & T2 & O & NB2). rewrite Ca1 in O.
    assert (Sm : party_of kx code claims n = party_of k code claims n /\ trace kx = trace k ++ q).
    { destruct T as (_ & -> & (Tr & Nm & Al & _)). destruct T2 as (Gx & _). rewrite get_put in Gx.
      destruct (colour_eqb_spec c c); [|congruence]. injection Gx as <-. unfold party_of. rewrite Nm, Al. auto. }
    destruct Sm as [Sm1 Sm2]. rewrite Sm1, Sm2 in O.
    intros E. exists k, k2, (q ++ evs).
    assert (g2 = g') by (destruct r2 as [[s|]|? ?|? ?|[]]; congruence). subst g'.
    split; [exact (told_trans _ _ _ _ _ _ _ _ _ _ T T2)|].
    pose proof (fun e => optional_raise _ _ _ _ _ _ e O) as Rr.
    destruct r2 as [[s|]|m x|kd m|e].
    + injection E as <-. split; [|discriminate]. intros t e H. injection H as H.
      apply (cp_asked _ _ q evs (Some s)); [exact Q|exact O|]. destruct (float_of s); injection H as <- <-; auto.
    + injection E as <-. split; [|discriminate]. intros t e H. injection H as <- <-.
      apply (cp_asked _ _ q evs None); [exact Q|exact O|]. auto.
    + elim (NB2 m x eq_refl).
    + injection E as <-. split; [discriminate|]. intros e H. injection H as <-. apply fair_ordinary, Rr. reflexivity.
    + assert (Odd : e = ValueError \/ e = TypeError -> r = CRet (None, true) ->
        (forall t x, r = CRet (t, x) -> cpu_talk (party_of k code claims n) (trace k) (q ++ evs) t x) /\
        (forall x, to_res r = Err x -> ordinary x)).
      { intros V ->. split; [|discriminate]. intros t x H; injection H as <- <-.
        apply (cp_odd _ _ _ _ e); [exact Q| |exact V]. destruct V; subst e; exact O. }
      assert (Plain : r = CExn e ->
        (forall t x, r = CRet (t, x) -> cpu_talk (party_of k code claims n) (trace k) (q ++ evs) t x) /\
        (forall x, to_res r = Err x -> ordinary x)).
      { intros ->. split; [discriminate|]. intros x H. injection H as <-. apply other_ordinary. }
      destruct e; try (apply Plain; congruence); apply Odd; auto; congruence.
  - intros E; injection E as <- <-. exists k, k1, q. split; [exact T|]. split; [|discriminate].
    intros t e H; injection H as <- <-. constructor. exact Q.
  - elim (NB m x eq_refl).
  - intros E; injection E as <- <-. exists k, k1, q. split; [exact T|]. split; [discriminate|].
    intros e H. injection H as <-. apply fair_ordinary. exact (query_raise _ _ _ _ _ _ Q eq_refl).
  - intros E; injection E as <- <-. exists k, k1, q. split; [exact T|]. split; [discriminate|].
    intros x H. injection H as <-. apply other_ordinary.
Qed.

Lemma cpu_both (g g' : gctl (X * list cevent)) r : playing g -> g_cautious g = true ->
  get_gtp_cpu_times (chs ch) g = (g', r) ->
  g_cautious g' = true /\ playing g' /\ g_code_b g' = g_code_b g /\ g_code_w g' = g_code_w g /\
  (forall e, to_res r = Err e -> ordinary e) /\
  (forall tb eb tw ew, r = CRet ((tb, eb), (tw, ew)) -> forall cb clb nb cw clw nw,
     exists kb kb' evb kw kw' evw, g_get Black g = Some kb /\ g_get Black g' = Some kb' /\ grew kb kb' evb /\
       cpu_talk (party_of kb cb clb nb) (trace kb) evb tb eb /\
       g_get White g = Some kw /\ g_get White g' = Some kw' /\ grew kw kw' evw /\
       cpu_talk (party_of kw cw clw nw) (trace kw) evw tw ew).
Proof.
  intros P Ca. unfold get_gtp_cpu_times. destruct (cpu_time (chs ch) Black g) as [g1 r1] eqn:B.
  assert (B0 := cpu_one [] false O _ _ _ _ P Ca B). destruct B0 as (kb0 & kb0' & evb0 & Tb & _ & Rb).
  pose proof (told_playing _ _ _ _ _ _ Tb P) as P1.
  assert (C1 : g_cautious g1 = true /\ g_code_b g1 = g_code_b g /\ g_code_w g1 = g_code_w g).
  { destruct Tb as (_ & -> & _). auto. }
  destruct C1 as (Ca1 & Cb1 & Cw1).
  assert (Early : r1 = r1 -> (forall a, r1 <> CRet a) -> g1 = g' -> to_res r = (do x <- to_res r1; Err AssertionError) ->
     g_cautious g' = true /\ playing g' /\ g_code_b g' = g_code_b g /\ g_code_w g' = g_code_w g /\
     (forall e, to_res r = Err e -> ordinary e)).
  { intros _ N <- Er. do 4 (split; [assumption|]). intros e H. rewrite Er in H. apply Rb.
    destruct r1 as [a| | |]; cbn in *; [elim (N a eq_refl)|congruence..]. }
  destruct r1 as [[tb eb]|m x|kd m|e].
  - destruct (cpu_time (chs ch) White g1) as [g2 r2] eqn:W.
    assert (W0 := cpu_one [] false O _ _ _ _ P1 Ca1 W). destruct W0 as (kw0 & kw0' & evw0 & Tw & _ & Rw).
    pose proof (told_playing _ _ _ _ _ _ Tw P1) as P2.
    assert (C2 : g_cautious g2 = true /\ g_code_b g2 = g_code_b g /\ g_code_w g2 = g_code_w g).
    { destruct Tw as (_ & -> & _). auto. }
    destruct C2 as (Ca2 & Cb2 & Cw2). intros E.
    assert (g2 = g') by (destruct r2; congruence). subst g'.
    do 4 (split; [assumption|]). split.
    { intros e H. apply Rw. destruct r2; injection E as <-; cbn in *; congruence. }
    intros tb' eb' tw ew Er cb clb nb cw clw nw. subst r.
    destruct r2 as [[tw' ew']|? ?|? ?|?]; try discriminate. injection E as <- <- <- <-.
    assert (B1 := cpu_one cb clb nb _ _ _ _ P Ca B). destruct B1 as (kb & kb' & evb & Tb1 & Ab & _).
    assert (W1 := cpu_one cw clw nw _ _ _ _ P1 Ca1 W). destruct W1 as (kw & kw' & evw & Tw1 & Aw & _).
    exists kb, kb', evb, kw, kw', evw.
    destruct Tb1 as (Gb & Eg1 & Grb). destruct Tw1 as (Gw & Eg2 & Grw).
    split; [exact Gb|]. split; [rewrite Eg2, get_put; cbn [colour_eqb]; rewrite Eg1, get_put; reflexivity|].
    split; [exact Grb|]. split; [apply Ab; reflexivity|].
    split; [rewrite Eg1, get_put in Gw; exact Gw|]. split; [rewrite Eg2, get_put; reflexivity|].
    split; [exact Grw|]. apply Aw; reflexivity.
  - intros E. destruct Early as (A1 & A2 & A3 & A4 & A5); [reflexivity|discriminate|congruence|injection E as _ <-; reflexivity|].
    do 5 (split; [assumption|]). intros; subst; discriminate.
  - intros E. destruct Early as (A1 & A2 & A3 & A4 & A5); [reflexivity|discriminate|congruence|injection E as _ <-; reflexivity|].
    do 5 (split; [assumption|]). intros; subst; discriminate.
  - intros E. destruct Early as (A1 & A2 & A3 & A4 & A5); [reflexivity|discriminate|congruence|injection E as _ <-; reflexivity|].
    do 5 (split; [assumption|]). intros; subst; discriminate.
Qed.

Lemma set_players_names r cb cw id tb tw :
  names_result cb cw id r (mkGR (gr_base (set_players r cb cw)) (gr_player_b (set_players r cb cw)) (gr_player_w (set_players r cb cw)) id tb tw).
Proof.
  unfold names_result, set_players. cbn. do 7 (split; [reflexivity|]). split.
  - intros ->. reflexivity.
  - intros c d -> -> ->. destruct c; reflexivity.
Qed.

Theorem game_correct fuel (g g' : gtp_game (X * list cevent)) out size limit stones r1 s1 log o :
  engaged ch (ga_backend g) -> 2 <= size <= 25 -> ready (ga_runner g) size limit stones ->
  (forall p, In p (match stones with Some l => l | None => [] end) -> on_board size p) ->
  run (logged BK) fuel pick (ga_runner g) (ga_backend g, []) = (r1, (s1, log), o) ->
  run_gtp_game (fun c => recorded (ch c)) sanitise pick after fuel g = (g', out) ->
  match out with
  | Ok _ => o = Ok tt /\ ga_runner g' = r1 /\ g_cautious (gb_gc (ga_backend g')) = true /\
      exists res gr eb ew, ru_result r1 = Some res /\ ga_result g' = Some gr /\
        names_result (g_code_b (gb_gc (ga_backend g))) (g_code_w (gb_gc (ga_backend g))) (ga_id g) res gr /\
        ga_cpu_errors g' = Some (eb, ew) /\
        forall c, exists k evs, g_get c (gb_gc s1) = Some k /\ said_to c s1 (ga_backend g') evs /\
          cpu_talk (player_party (ga_backend g) c k) (trace k) evs
            (match c with Black => gr_cpu_b gr | White => gr_cpu_w gr end)
            (match c with Black => eb | White => ew end)
  | Err e => e <> bad_gtp /\ (e = channel_error -> o = Err e /\ filter is_end log = [])
  end.
Proof.
  intros En Sz Rd St R. unfold run_gtp_game.
  rewrite <- (run_transparent BK fuel pick (ga_runner g) (ga_backend g) []), R. cbv beta iota delta [forget].
  pose proof (run_dialogue _ _ _ _ _ _ _ En R) as D.
  destruct o as [[]|e].
  2:{ intros E; injection E as <- <-. destruct (run_raises _ _ _ _ _ _ _ _ _ _ En Sz Rd St R) as [A B].
      split; [exact A|]. intros Ec. auto. }
  pose proof (run_ends_once BK pick fuel (ga_runner g) (ga_backend g) r1 s1 log size limit stones Sz Rd St R) as Once.
  assert (Ex : existsb is_end log = true).
  { destruct (existsb is_end log) eqn:Z; [reflexivity|]. apply filter_existsb in Z. rewrite Z in Once. discriminate. }
  pose proof (run_correct BK pick fuel (ga_runner g) (ga_backend g) r1 s1 log (Ok tt) size limit stones Sz Rd St R) as Rc.
  cbv zeta in Rc. destruct Rc as (pos & _ & y & e & final & sc & res & _ & _ & _ & _ & Rres & _). rewrite Rres.
  pose proof (sl_cautious _ _ _ _ D) as Ca. rewrite Ex in Ca.
  pose proof (sound_playing _ _ _ _ D) as P.
  destruct (get_gtp_cpu_times (fun c => recorded (ch c)) (gb_gc s1)) as [gc2 r2] eqn:Cp.
  apply cpu_both in Cp; [|exact P|exact Ca]. destruct Cp as (Ca2 & P2 & Cb2 & Cw2 & Rr & Tk).
  pose proof (sl_same _ _ _ _ D) as (Zs & Z1 & Z2 & Z3 & Z4 & Z5 & Z6).
  destruct r2 as [[[tb eb] [tw ew]]|m x|kd m|x].
  - cbv zeta. intros E; injection E as <- <-. cbn [ga_runner ga_backend ga_result ga_cpu_errors with_gc gb_gc].
    split; [reflexivity|]. split; [reflexivity|]. split; [exact Ca2|].
    eexists res, _, eb, ew. split; [reflexivity|]. split; [reflexivity|]. split.
    { rewrite Z5, Z6. apply set_players_names. }
    split; [reflexivity|].
    set (n := fun c => if gb_internal (ga_backend g) then O else scorer_count c (gb_scorers (ga_backend g))).
    destruct (Tk tb eb tw ew eq_refl (g_code_b (gb_gc (ga_backend g))) (gb_claim_b (ga_backend g)) (n Black)
                (g_code_w (gb_gc (ga_backend g))) (gb_claim_w (ga_backend g)) (n White))
      as (kb & kb' & evb & kw & kw' & evw & G1 & G2 & (T1 & _) & C1 & G3 & G4 & (T2 & _) & C2).
    intros [|].
    + exists kb, evb. split; [exact G1|]. split; [exists kb, kb'; auto|].
      unfold soft_update_cpu_times. cbn. destruct tb; exact C1.
    + exists kw, evw. split; [exact G3|]. split; [exists kw, kw'; auto|].
      unfold soft_update_cpu_times. cbn. destruct tw; exact C2.
  - intros E; injection E as <- <-. destruct (Rr bad_gtp eq_refl) as [A _]. elim A; reflexivity.
  - intros E; injection E as <- <-. destruct (Rr channel_error eq_refl) as [_ A]. elim A; reflexivity.
  - intros E; injection E as <- <-. destruct (other_ordinary x) as [A B]. cbn. split; [exact A|]. intros Q; contradiction.
Qed.

(** Closing the players. *)
Lemma close_one c (g g' : gctl (X * list cevent)) k r : g_get c g = Some k ->
  close_player (fun d => recorded (ch d)) c g = (g', r) ->
  exists k' evs, g_get c g' = Some k' /\ (forall d, d <> c -> g_get d g' = g_get d g) /\ effect Safe_close k k' evs /\
    (existsb unexpected evs = false -> r = CRet tt /\ c_closed k' = true /\ g_late g' = g_late g ++ c_errors k').
Proof.
  intros G. unfold close_player. rewrite G.
  destruct (safe_close (recorded (ch c)) k) as [k' r1] eqn:S. pose proof S as S0. apply effect_safe_close in S.
  destruct S as (evs & Ef & Cl & Op). intros E. exists k', evs.
  assert (U : existsb unexpected evs = false -> r1 = CRet tt /\ c_closed k' = true).
  { intros U. destruct (c_closed k) eqn:Z; [destruct (Cl eq_refl) as [-> ->]; auto|].
    destruct (Op eq_refl U) as (A & B & _). auto. }
  assert (Gs : g_get c g' = Some k' /\ (forall d, d <> c -> g_get d g' = g_get d g) /\
               (r1 = CRet tt -> r = CRet tt /\ g_late g' = g_late g ++ c_errors k')).
  { destruct r1 as [[]|? ?|? ?|?]; injection E as <- <-; (split; [destruct c; reflexivity|]); (split; [intros [|] N; destruct c; try reflexivity; congruence|]);
      intros Q; try discriminate Q. split; [reflexivity|]. destruct c; reflexivity. }
  destruct Gs as (A & B & C). split; [exact A|]. split; [exact B|]. split; [exact Ef|].
  intros Un. destruct (U Un) as [R1 C1]. destruct (C R1) as [C2 C3]. auto.
Qed.

Lemma close_both (g g' : gctl (X * list cevent)) kb kw r : g_get Black g = Some kb -> g_get White g = Some kw ->
  close_players (fun d => recorded (ch d)) g = (g', r) ->
  exists kb' eb, g_get Black g' = Some kb' /\ effect Safe_close kb kb' eb /\
  (existsb unexpected eb = false ->
   exists kw' ew, g_get White g' = Some kw' /\ effect Safe_close kw kw' ew /\ c_closed kb' = true /\
   (existsb unexpected ew = false ->
      r = CRet tt /\ c_closed kw' = true /\ g_late g' = g_late g ++ c_errors kb' ++ c_errors kw')).
Proof.
  intros Gb Gw. unfold close_players. destruct (close_player _ Black g) as [g1 r1] eqn:B.
  destruct (close_one Black g g1 kb r1 Gb B) as (kb' & eb & G1 & O1 & E1 & U1).
  destruct (close_player _ White g1) as [g2 r2] eqn:W.
  assert (Gw1 : g_get White g1 = Some kw) by (rewrite O1 by discriminate; exact Gw).
  destruct (close_one White g1 g2 kw r2 Gw1 W) as (kw' & ew & G2 & O2 & E2 & U2).
  intros E. destruct (existsb unexpected eb) eqn:Ub.
  - exists kb', eb. split; [|split; [exact E1|congruence]].
    destruct r1 as [[]|? ?|? ?|?].
    + assert (g2 = g') by congruence. subst g'. rewrite O2 by discriminate. exact G1.
    + assert (g1 = g') by congruence. subst g'. exact G1.
    + assert (g1 = g') by congruence. subst g'. exact G1.
    + assert (g1 = g') by congruence. subst g'. exact G1.
  - destruct (U1 eq_refl) as (-> & C1 & L1). assert (g2 = g' /\ r2 = r) as [-> ->] by (split; congruence).
    exists kb', eb. split; [rewrite O2 by discriminate; exact G1|]. split; [exact E1|]. intros _.
    exists kw', ew. split; [exact G2|]. split; [exact E2|]. split; [exact C1|]. intros Uw.
    destruct (U2 Uw) as (-> & C2 & L2). split; [reflexivity|]. split; [exact C2|]. rewrite L2, L1, app_assoc. reflexivity.
Qed.
End Whole.
