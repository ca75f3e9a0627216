(** Proofs about Game_runner (C32). *)
From Verif Require Import Base Bytes PyStr BoardModel BoardSpec BoardProofs BoardPlayProofs BoardMainProofs
  CommonModel CommonSpec CommonProofs SgfPropsModel GameplayModel GameplaySpec GameplayProofs.
Open Scope Z_scope.

(** The streak of a game without interruptions. *)
Definition linked (x : situation) (streak : nat) : Prop :=
  (streak <= 1)%nat /\ runs_two_passes x None = Nat.eqb streak 1.

Lemma move_call {E} (cb : option (ggame -> E -> E * res unit)) s limit pick g e x streak m g' e' r :
  s <= 25 -> shows s limit g (mkGS x streak None) -> ko_ok s (mkGS x streak None) -> linked x streak ->
  record_move cb pick g e (s_turn x) m = (g', e', r) ->
  (exists y en streak', legal_step s x m y /\ after_step limit (runs_two_passes x m) (s_moves y) en /\
     shows s limit g' (mkGS y streak' en) /\ ko_ok s (mkGS y streak' en) /\
     match en with
     | None => linked y streak' /\ e' = e /\ r = Ok tt
     | Some _ => match cb with None => e' = e /\ r = Ok tt | Some f => (e', r) = f g' e end
     end) \/
  (exists p v reason, m = Some p /\ on_board s p /\ format_vertex (Some p) = Ok v /\
     (s_ko x = Some p /\ reason = ko_reason ++ v \/ s_pos x p <> None /\ reason = occupied_reason ++ v) /\
     shows s limit g' (mkGS x 0 (Some (Forfeited (s_turn x) reason))) /\
     match cb with None => e' = e /\ r = Ok tt | Some f => (e', r) = f g' e end) \/
  (exists p, m = Some p /\ ~ on_board s p /\ e' = e /\ r = Err IndexError).
Proof.
  intros S25 Sh Ko [L1 L2] H.
  destruct (call_step cb s limit pick g e (mkGS x streak None) (CMove (s_turn x) m) g' e' r S25 Sh Ko H)
    as (y & out & St & Sh' & Ko' & Ef).
  unfold effect in Ef. cbn [gs_end] in Ef.
  inversion St; subst; cbn [gs_sit gs_streak gs_end] in *; try congruence.
  - (* pass *)
    left. exists y0, e0, (Datatypes.S streak). rewrite L2.
    split; [assumption|]. split; [assumption|]. split; [exact Sh'|]. split; [exact Ko'|].
    destruct e0 as [en|]; [tauto|]. split; [|tauto].
    match goal with A : after_step _ _ _ None |- _ => inversion A; subst end.
    match goal with A : Nat.eqb streak 1 = false |- _ => apply Nat.eqb_neq in A end.
    assert (streak = 0%nat) as -> by lia. split; [lia|].
    match goal with A : legal_step _ _ None _ |- _ => inversion A; subst end.
    unfold runs_two_passes. cbn [s_moves]. rewrite rev_app_distr. reflexivity.
  - left. exists y0, e0, 0%nat.
    split; [assumption|]. split; [assumption|]. split; [exact Sh'|]. split; [exact Ko'|].
    destruct e0 as [en|]; [tauto|]. split; [|tauto]. split; [lia|].
    match goal with A : legal_step _ _ (Some _) _ |- _ => inversion A; subst end.
    unfold runs_two_passes. cbn [s_moves]. rewrite rev_app_distr. reflexivity.
  - right; left. exists p, v, (ko_reason ++ v). split; [reflexivity|].
    split; [apply Ko; assumption|]. split; [assumption|]. split; [auto|]. split; [exact Sh'|]. tauto.
  - right; left. exists p, v, (occupied_reason ++ v). split; [reflexivity|].
    split; [assumption|]. split; [assumption|]. split; [auto|]. split; [exact Sh'|]. tauto.
  - right; right. exists p. tauto.
Qed.

Section Run.
Context {S : Type}.
Variable B : backend S.
Notation LB := (logged B).
Notation has_cb := (match b_after B with Some _ => true | None => false end).

Lemma log1_eq {A} (f : S -> S * res A) ev s log x r :
  log1 f ev (s, log) = (x, r) -> exists s', f s = (s', r) /\ x = (s', log ++ [ev r]).
Proof.
  unfold log1. cbn [fst snd]. destruct (f s) as [s' r'] eqn:F. intros H. injection H as <- <-. eauto.
Qed.

(** The attributes of the runner that a round does not change. *)
Definition same_setup (r r' : runner) : Prop :=
  ru_size r' = ru_size r /\ ru_komi r' = ru_komi r /\ ru_limit r' = ru_limit r /\
  ru_handicap r' = ru_handicap r /\ ru_stones r' = ru_stones r /\ ru_score r' = ru_score r /\
  ru_result r' = ru_result r /\ ru_state r' = ru_state r.

Lemma same_setup_refl r : same_setup r r.
Proof. unfold same_setup. auto 8. Qed.
Lemma same_setup_trans a b c : same_setup a b -> same_setup b c -> same_setup a c.
Proof. unfold same_setup. intuition congruence. Qed.
Lemma same_setup_final c cm r : same_setup r (set_final c cm r).
Proof. destruct cm; unfold same_setup; cbn; auto 8. Qed.
Lemma same_setup_add x r : same_setup r (add_move x r).
Proof. unfold same_setup; cbn; auto 8. Qed.

Lemma final_is c cm r :
  ru_final (set_final c cm r) = match option_map (pair c) cm with Some d => Some d | None => ru_final r end /\
  ru_moves (set_final c cm r) = ru_moves r.
Proof. destruct cm; cbn; auto. Qed.

(** The outcome of one round. *)
Definition round_ok (s : Z) (limit : option Z) (x : run_state) (r : runner) (log : list event)
  (r' : runner) (g' : ggame) (log' : list event) : Prop :=
  same_setup r r' /\
  exists evs, log' = log ++ evs /\
  ((exists y streak, quiet_round s limit has_cb x evs y /\ shows s limit g' (mkGS (rs_sit y) streak None) /\
      ko_ok s (mkGS (rs_sit y) streak None) /\ linked (rs_sit y) streak /\ ru_moves r' = rs_record y /\
      ru_final r' = ru_final r) \/
   (exists y e final, last_round s limit has_cb x evs y e final /\ reports g' e /\
      (e = PassedOut -> view (gm_board g') = s_pos (rs_sit y)) /\ ru_moves r' = rs_record y /\
      ru_final r' = match final with Some d => Some d | None => ru_final r end)).

Definition round_err (s : Z) (x : run_state) (r : runner) (log : list event)
  (r' : runner) (log' : list event) (e : exn) : Prop :=
  same_setup r r' /\
  exists evs, log' = log ++ evs /\ broke_off s evs e /\
  exists y, ru_moves r' = rs_record y /\
    (y = x \/ exists m cm sit, legal_step s (rs_sit x) m sit /\ y = mkRS sit (rs_record x ++ [(s_turn (rs_sit x), m, cm)])).

Lemma broke_last s evs ev e :
  broke_off s [ev] e -> broke_off s (evs ++ [ev]) e.
Proof.
  intros (b & ev' & E & H). exists evs, ev. split; [reflexivity|].
  change [ev] with ([] ++ [ev]) in E. apply app_inj_tail in E. destruct E as [_ ->]. exact H.
Qed.

Lemma reports_set g e : forall s limit x streak, shows s limit g (mkGS x streak (Some e)) -> reports g e.
Proof. intros s limit x streak (_ & _ & _ & _ & _ & En). cbn in En. tauto. Qed.

(** Rounds that end without a move. *)
Lemma ended_round s limit x r g s0 log c act ending (o : game_call) g' s1 log1' out r2 g2 s2 log2 out2 streak ssx :
  s <= 25 -> c = s_turn (rs_sit x) -> ru_moves r = rs_record x ->
  ssx = rs_sit x ->
  shows s limit g (mkGS (rs_sit x) streak None) -> ko_ok s (mkGS (rs_sit x) streak None) ->
  (forall y out', game_step s limit (mkGS ssx streak None) o y out' -> out' = None /\ gs_end y = Some ending) ->
  (forall cm, last_round s limit has_cb x [EGetMove c (Ok act); EEnd (Ok tt); EComment c (Ok cm)]
     x ending (option_map (pair c) cm)) ->
  ending <> PassedOut ->
  call (over_callback LB) (fun _ => 0%nat) g (s0, log ++ [EGetMove c (Ok act)]) o = (g', (s1, log1'), out) ->
  ended_without_move LB r c (g', (s1, log1'), out) = (r2, g2, (s2, log2), out2) ->
  match out2 with
  | Ok _ => round_ok s limit x r log r2 g2 log2
  | Err e => round_err s x r log r2 log2 e
  end.
Proof.
  intros S25 Ec Mv Ess Sh Ko Det LR NP C EW.
  destruct (call_step _ s limit _ _ _ _ _ _ _ _ S25 Sh Ko C) as (y & out' & St & Sh' & Ko' & Ef).
  subst ssx. destruct (Det y out' St) as [-> YE]. unfold effect in Ef. cbn [gs_end] in Ef. rewrite YE in Ef.
  destruct Ef as [_ Ef]. cbn [over_callback] in Ef. symmetry in Ef.
  change (b_end LB) with (log1 (b_end B) EEnd) in Ef. apply log1_eq in Ef. destruct Ef as (s1' & F1 & Q).
  injection Q as -> ->.
  assert (reports g' ending) as Re.
  { destruct Sh' as (_ & _ & _ & _ & _ & En). rewrite YE in En. tauto. }
  unfold ended_without_move in EW. destruct out as [[]|e].
  2:{ injection EW as <- <- <- <- <-. split; [apply same_setup_refl|].
      eexists. split; [rewrite <- app_assoc; reflexivity|]. split.
      - apply (broke_last s [_]). exists [], (EEnd (Err e)). split; [reflexivity|]. reflexivity.
      - exists x. auto. }
  destruct (b_comment LB c (s1', (log ++ [EGetMove c (Ok act)]) ++ [EEnd (Ok tt)])) as [[s3 log3] [cm|e]] eqn:BC;
    change (b_comment LB c) with (log1 (b_comment B c) (EComment c)) in BC; apply log1_eq in BC;
    destruct BC as (s3' & F3 & Q); injection Q as -> ->; injection EW as <- <- <- <- <-.
  - split; [apply same_setup_final|].
    eexists. split; [rewrite <- !app_assoc; reflexivity|]. right.
    exists x, ending, (option_map (pair c) cm). split; [apply LR|]. split; [exact Re|]. split; [congruence|].
    destruct (final_is c cm r) as [F1' F2']. split; [congruence|exact F1'].
  - split; [apply same_setup_refl|].
    eexists. split; [rewrite <- !app_assoc; reflexivity|]. split.
    + apply (broke_last s [_; _]). exists [], (EComment c (Err e)). split; [reflexivity|]. reflexivity.
    + exists x. auto.
Qed.

Lemma shows_record s limit g x en : shows s limit g x -> gs_end x = Some en -> reports g en.
Proof. intros (_ & _ & _ & _ & _ & En) E. rewrite E in En. tauto. Qed.

Lemma do_move_round s limit pick x streak r g s0 log r' g' s1 log' out :
  s <= 25 -> shows s limit g (mkGS (rs_sit x) streak None) -> ko_ok s (mkGS (rs_sit x) streak None) ->
  linked (rs_sit x) streak -> ru_moves r = rs_record x ->
  do_move LB pick r g (s0, log) (s_turn (rs_sit x)) = (r', g', (s1, log'), out) ->
  match out with
  | Ok _ => round_ok s limit x r log r' g' log'
  | Err e => round_err s x r log r' log' e
  end.
Proof.
  intros S25 Sh Ko Li Mv H. set (c := s_turn (rs_sit x)) in *.
  unfold do_move in H.
  destruct (b_get_move LB c (s0, log)) as [[s2 log2] ra] eqn:GM.
  change (b_get_move LB c) with (log1 (b_get_move B c) (EGetMove c)) in GM. apply log1_eq in GM.
  destruct GM as (s2' & F2 & Q). injection Q as -> ->.
  assert (forall act e0, broke_off s [EGetMove c act] e0 -> r' = r -> log' = log ++ [EGetMove c act] ->
          round_err s x r log r' log' e0) as Quick.
  { intros act e0 BO -> ->. split; [apply same_setup_refl|]. eexists. split; [reflexivity|]. split; [exact BO|].
    exists x. auto. }
  destruct ra as [[m|why| | |]|e].
  - (* a move *)
    destruct (record_move (over_callback LB) pick g (s2', log ++ [EGetMove c (Ok (AMove m))]) c m)
      as [[g2 [s3 log3]] r3] eqn:RM.
    destruct (move_call _ s limit pick g _ (rs_sit x) streak m g2 (s3, log3) r3 S25 Sh Ko Li RM)
      as [(y & en & streak' & LS & AS & Sh2 & Ko2 & Ef)|[(p & v & reason & -> & O & FV & Why & Sh2 & Ef)|(p & -> & O & Q & ->)]].
    + (* legal *)
      assert (gm_forfeited g2 = false /\ gm_over g2 = match en with Some _ => true | None => false end) as [NF OV].
      { destruct Sh2 as (_ & _ & _ & _ & _ & En). cbn [gs_end] in En. destruct en as [en|].
        - destruct En as [(Q1 & _ & _ & _ & _ & Q2 & _) _]. split; [|exact Q1]. rewrite Q2.
          inversion AS; reflexivity.
        - destruct En as [(Q1 & _ & _ & _ & _ & Q2 & _) _]. auto. }
      assert (exists evs, log3 = log ++ EGetMove c (Ok (AMove m)) :: evs /\
                match en with
                | None => evs = [] /\ r3 = Ok tt
                | Some _ => evs = [EEnd r3]
                end) as (evs3 & -> & Ev3).
      { destruct en as [en|].
        - cbn [over_callback] in Ef. symmetry in Ef.
          change (b_end LB) with (log1 (b_end B) EEnd) in Ef. apply log1_eq in Ef. destruct Ef as (s3' & _ & Q).
          injection Q as _ ->. exists [EEnd r3]. split; [rewrite <- app_assoc; reflexivity|reflexivity].
        - destruct Ef as (_ & Q & ->). injection Q as _ ->. exists []. auto. }
      destruct r3 as [[]|e].
      2:{ injection H as <- <- <- <- <-. destruct en as [en|]; [|destruct Ev3; discriminate]. subst evs3.
          split; [apply same_setup_refl|]. eexists. split; [reflexivity|]. split.
          - apply (broke_last s [_]). exists [], (EEnd (Err e)). split; reflexivity.
          - exists x. auto. }
      destruct (b_comment LB c (s3, log ++ EGetMove c (Ok (AMove m)) :: evs3)) as [[s4 log4] rc] eqn:BC.
      change (b_comment LB c) with (log1 (b_comment B c) (EComment c)) in BC; apply log1_eq in BC;
      destruct BC as (s4' & F4 & Q); injection Q as -> ->. rewrite <- app_assoc in H. cbn [app] in H.
      destruct rc as [cm|e].
      2:{ injection H as <- <- <- <- <-. split; [apply same_setup_refl|].
          eexists. split; [reflexivity|]. split.
          - apply (broke_last s (_ :: evs3)). exists [], (EComment c (Err e)). split; reflexivity.
          - exists x. auto. }
      rewrite NF in H.
      destruct (b_notify LB (opponent_of c) m (s4', log ++ EGetMove c (Ok (AMove m)) :: evs3 ++ [EComment c (Ok cm)]))
        as [[s5 log5] rn] eqn:BN.
      change (b_notify LB (opponent_of c) m) with (log1 (b_notify B (opponent_of c) m) (ENotify (opponent_of c) m)) in BN.
      apply log1_eq in BN. destruct BN as (s5' & F5 & Q). injection Q as -> ->.
      rewrite <- app_assoc in H. cbn [app] in H. rewrite <- app_assoc in H. cbn [app] in H.
      assert (forall e0, broke_off s [ENotify (opponent_of c) m rn] e0 -> r' = r ->
        log' = log ++ EGetMove c (Ok (AMove m)) :: evs3 ++ [EComment c (Ok cm); ENotify (opponent_of c) m rn] ->
        round_err s x r log r' log' e0) as QuickN.
      { intros e0 BO -> ->. split; [apply same_setup_refl|]. eexists. split; [reflexivity|]. split.
        - replace (EGetMove c (Ok (AMove m)) :: evs3 ++ [EComment c (Ok cm); ENotify (opponent_of c) m rn])
            with ((EGetMove c (Ok (AMove m)) :: evs3 ++ [EComment c (Ok cm)]) ++ [ENotify (opponent_of c) m rn]).
          + apply broke_last. exact BO.
          + cbn [app]. rewrite <- app_assoc. reflexivity.
        - exists x. auto. }
      destruct rn as [st|e].
      2:{ injection H as <- <- <- <- <-. apply QuickN; [|reflexivity|reflexivity].
          exists [], (ENotify (opponent_of c) m (Err e)). split; reflexivity. }
      (* the move stands *)
      assert (st <> SBad ->
        (let r5 := add_move (c, m, cm) r in
         match b_after LB with
         | None => (r5, g2, (s5', log ++ EGetMove c (Ok (AMove m)) :: evs3 ++ [EComment c (Ok cm); ENotify (opponent_of c) m (Ok st)]), Ok tt)
         | Some f => let (s5, x) := f c m (gm_board g2) (s5', log ++ EGetMove c (Ok (AMove m)) :: evs3 ++ [EComment c (Ok cm); ENotify (opponent_of c) m (Ok st)]) in (r5, g2, s5, x)
         end) = (r', g', (s1, log'), out) ->
        (en = None -> st = SAccept) ->
        match out with
        | Ok _ => round_ok s limit x r log r' g' log'
        | Err e => round_err s x r log r' log' e
        end) as Stands.
      { intros NB H0 Acc. cbn [logged b_after] in H0.
        assert (exists after, r' = add_move (c, m, cm) r /\ g' = g2 /\
           log' = log ++ (EGetMove c (Ok (AMove m)) :: evs3 ++ [EComment c (Ok cm); ENotify (opponent_of c) m (Ok st)]) ++ after /\
           match out with
           | Ok _ => callback_events s has_cb c m (s_pos y) after
           | Err e => after = [EAfter c m (gm_board g2) (Err e)]
           end) as (after & -> & -> & -> & Af).
        { destruct (b_after B) as [f|].
          - destruct (log1 (f c m (gm_board g2)) (EAfter c m (gm_board g2)) _) as [[s6 log6] r6] eqn:LA.
            apply log1_eq in LA. destruct LA as (s6' & F6 & Q). injection Q as -> ->.
            injection H0 as <- <- <- <- <-. exists [EAfter c m (gm_board g2) r6].
            split; [reflexivity|]. split; [reflexivity|]. split; [rewrite <- app_assoc; reflexivity|].
            destruct r6 as [[]|e]; [|reflexivity]. exists (gm_board g2). split; [reflexivity|].
            destruct Sh2 as (_ & V & _). cbn [gs_sit] in V. rewrite V. intros q _. reflexivity.
          - injection H0 as <- <- <- <- <-. exists []. split; [reflexivity|]. split; [reflexivity|].
            split; [rewrite app_nil_r; reflexivity|reflexivity]. }
        destruct out as [[]|e].
        - split; [apply same_setup_add|]. eexists. split; [reflexivity|].
          destruct en as [en|].
          + right. exists (mkRS y (rs_record x ++ [(c, m, cm)])), en, None. subst evs3.
            split; [|split; [|split; [|split]]].
            * apply (lr_final_move s limit has_cb x m y cm st en after LS AS NB Af).
            * eapply shows_record; [exact Sh2|reflexivity].
            * intros _. destruct Sh2 as (_ & V & _). exact V.
            * cbn. congruence.
            * reflexivity.
          + left. destruct Ef as (Li' & _ & _). destruct Ev3 as [-> _].
            exists (mkRS y (rs_record x ++ [(c, m, cm)])), streak'.
            split; [|split; [|split; [|split; [|split]]]].
            * rewrite (Acc eq_refl). apply (qr_move s limit has_cb x m y cm after LS AS Af).
            * exact Sh2.
            * exact Ko2.
            * exact Li'.
            * cbn. congruence.
            * reflexivity.
        - subst after. split; [apply same_setup_add|]. eexists. split; [reflexivity|]. split.
          + apply broke_last. exists [], (EAfter c m (gm_board g2) (Err e)). split; reflexivity.
          + exists (mkRS y (rs_record x ++ [(c, m, cm)])). split; [cbn; congruence|]. right.
            exists m, cm, y. split; [exact LS|reflexivity]. }
      (* rejected *)
      assert (forall loser msg ending,
        en = None ->
        ending = Forfeited loser msg ->
        last_round s limit has_cb x
          [EGetMove c (Ok (AMove m)); EComment c (Ok cm); ENotify (opponent_of c) m (Ok st); EEnd (Ok tt)]
          x ending (option_map (pair c) cm) ->
        match record_forfeit_by (over_callback LB) g2 (s5', log ++ EGetMove c (Ok (AMove m)) :: evs3 ++ [EComment c (Ok cm); ENotify (opponent_of c) m (Ok st)]) loser msg with
        | (g5, s5, Err e) => (r, g5, s5, Err e)
        | (g5, s5, Ok _) => (set_final c cm r, g5, s5, Ok tt)
        end = (r', g', (s1, log'), out) ->
        match out with
        | Ok _ => round_ok s limit x r log r' g' log'
        | Err e => round_err s x r log r' log' e
        end) as Rejected.
      { intros loser msg ending -> -> LR H0. destruct Ev3 as [-> _]. cbn [app] in H0.
        destruct (record_forfeit_by (over_callback LB) g2 _ loser msg) as [[g5 [s6 log6]] r6] eqn:RF.
        assert (in_progress g2) as IP.
        { destruct Sh2 as (_ & _ & _ & _ & _ & En). cbn [gs_end] in En. tauto. }
        apply (forfeit_eq _ _ _ _ _ _ _ _ IP) in RF.
        destruct RF as (Re & _ & _ & _ & _ & _ & EfF). cbn [over_callback] in EfF. symmetry in EfF.
        change (b_end LB) with (log1 (b_end B) EEnd) in EfF. apply log1_eq in EfF. destruct EfF as (s6' & _ & Q).
        injection Q as -> ->. rewrite <- app_assoc in H0. cbn [app] in H0.
        destruct r6 as [[]|e]; injection H0 as <- <- <- <- <-.
        - split; [apply same_setup_final|]. eexists. split; [reflexivity|]. right.
          exists x, (Forfeited loser msg), (option_map (pair c) cm). split; [exact LR|]. split; [exact Re|].
          split; [discriminate|]. destruct (final_is c cm r) as [F1' F2']. split; [congruence|exact F1'].
        - split; [apply same_setup_refl|]. eexists. split; [reflexivity|]. split.
          + apply (broke_last s [_; _; _]). exists [], (EEnd (Err e)). split; reflexivity.
          + exists x. auto. }
      destruct st as [|msg|msg|].
      * apply Stands; [discriminate| |reflexivity]. rewrite OV in H.
        destruct en; exact H.
      * rewrite OV in H. destruct en as [en|].
        -- apply Stands; [discriminate|exact H|discriminate].
        -- eapply Rejected; [reflexivity|reflexivity| |exact H].
           apply lr_rejected with (y := y); assumption.
      * rewrite OV in H. destruct en as [en|].
        -- apply Stands; [discriminate|exact H|discriminate].
        -- eapply Rejected; [reflexivity|reflexivity| |exact H].
           apply lr_error with (y := y); assumption.
      * injection H as <- <- <- <- <-. apply QuickN; [|reflexivity|reflexivity].
        exists [], (ENotify (opponent_of c) m (Ok SBad)). split; reflexivity.
    + (* illegal *)
      cbn [over_callback] in Ef. symmetry in Ef.
      change (b_end LB) with (log1 (b_end B) EEnd) in Ef. apply log1_eq in Ef. destruct Ef as (s3' & _ & Q).
      injection Q as -> ->. rewrite <- app_assoc in H. cbn [app] in H.
      destruct r3 as [[]|e].
      2:{ injection H as <- <- <- <- <-. split; [apply same_setup_refl|]. eexists. split; [reflexivity|]. split.
          - apply (broke_last s [_]). exists [], (EEnd (Err e)). split; reflexivity.
          - exists x. auto. }
      destruct (b_comment LB c _) as [[s4 log4] rc] eqn:BC.
      change (b_comment LB c) with (log1 (b_comment B c) (EComment c)) in BC; apply log1_eq in BC;
      destruct BC as (s4' & F4 & Q); injection Q as -> ->. rewrite <- app_assoc in H. cbn [app] in H.
      assert (gm_forfeited g2 = true) as FF.
      { pose proof (shows_record _ _ _ _ _ Sh2 eq_refl) as Re. destruct Re as (_ & _ & _ & _ & _ & Q & _). exact Q. }
      destruct rc as [cm|e].
      2:{ injection H as <- <- <- <- <-. split; [apply same_setup_refl|].
          eexists. split; [reflexivity|]. split.
          - apply (broke_last s [_; _]). exists [], (EComment c (Err e)). split; reflexivity.
          - exists x. auto. }
      rewrite FF in H. injection H as <- <- <- <- <-.
      split; [apply same_setup_final|]. eexists. split; [reflexivity|]. right.
      exists x, (Forfeited c reason), (option_map (pair c) cm).
      split; [apply lr_illegal with (v := v); assumption|].
      split; [eapply shows_record; [exact Sh2|reflexivity]|]. split; [discriminate|].
      destruct (final_is c cm r) as [F1' F2']. split; [congruence|exact F1'].
    + (* off the board *)
      injection Q as -> ->. injection H as <- <- <- <- <-. apply (Quick (Ok (AMove (Some p)))); [|reflexivity|reflexivity].
      exists [], (EGetMove c (Ok (AMove (Some p)))). split; [reflexivity|]. auto.
  - destruct (record_forfeit_by _ g _ c why) as [[g3 [s3 log3]] r3] eqn:RF.
    eapply (ended_round s limit x r g s2' log c (AForfeit why) (Forfeited c why) (CForfeit c why));
      [exact S25|reflexivity|exact Mv|reflexivity|exact Sh|exact Ko| | | |exact RF|exact H].
    + intros y0 out0 St. inversion St; subst; cbn in *; try congruence. auto.
    + intros cm. apply lr_forfeit.
    + discriminate.
  - destruct (record_resignation_by _ g _ c) as [[g3 [s3 log3]] r3] eqn:RF.
    eapply (ended_round s limit x r g s2' log c AResign (Resigned c) (CResign c));
      [exact S25|reflexivity|exact Mv|reflexivity|exact Sh|exact Ko| | | |exact RF|exact H].
    + intros y0 out0 St. inversion St; subst; cbn in *; try congruence. auto.
    + intros cm. apply lr_resign.
    + discriminate.
  - destruct (record_claim_by _ g _ c) as [[g3 [s3 log3]] r3] eqn:RF.
    eapply (ended_round s limit x r g s2' log c AClaim (Claimed c) (CClaim c));
      [exact S25|reflexivity|exact Mv|reflexivity|exact Sh|exact Ko| | | |exact RF|exact H].
    + intros y0 out0 St. inversion St; subst; cbn in *; try congruence. auto.
    + intros cm. apply lr_claim.
    + discriminate.
  - injection H as <- <- <- <- <-. apply (Quick (Ok ABad)); [|reflexivity|reflexivity].
    exists [], (EGetMove c (Ok ABad)). split; reflexivity.
  - injection H as <- <- <- <- <-. apply (Quick (Err e)); [|reflexivity|reflexivity].
    exists [], (EGetMove c (Err e)). split; reflexivity.
Qed.

Lemma result_from_score_spec w m d r : result_from_score w m d = Ok r -> scored_result w m r /\ r_detail r = d.
Proof.
  unfold result_from_score, scored_result.
  destruct m as [m|].
  - destruct (fst m <? 0); [discriminate|]. destruct w as [c|].
    + destruct (fst m =? 0); [discriminate|]. intros H. injection H as <-. destruct c; cbn; auto.
    + destruct (fst m =? 0); [|discriminate]. intros H. injection H as <-. cbn. auto.
  - destruct w as [c|]; intros H; injection H as <-; [destruct c|]; cbn; auto.
Qed.

Lemma result_err w m d e : result_from_score w m d = Err e -> e = ValueError /\ new_game_score w m = Err ValueError.
Proof.
  unfold result_from_score, new_game_score.
  destruct m as [m|]; [|destruct w; discriminate].
  destruct (fst m <? 0) eqn:L.
  - intros H. injection H as <-. split; [reflexivity|]. destruct w.
    + destruct (fst m =? 0); reflexivity.
    + destruct (Z.eqb_spec (fst m) 0); [|reflexivity]. apply Z.ltb_lt in L. lia.
  - destruct w; destruct (fst m =? 0); try discriminate; intros H; injection H as <-; auto.
Qed.

Lemma unscored_ok g e : reports g e -> e <> PassedOut ->
  exists r, result_from_unscored g = Ok r /\ unscored_result e r.
Proof.
  intros (Q1 & Q2 & Q3 & Q4 & Q5 & Q6 & Q7 & Q8) NP. unfold result_from_unscored. rewrite Q1, Q2, Q3, Q4, Q5, Q6, Q7, Q8.
  destruct e as [| |c|c|c why]; [congruence| | | |]; cbn; (eexists; split; [reflexivity|]);
    unfold unscored_result; cbn; auto; destruct c; cbn; auto.
Qed.

Definition same_config (r r' : runner) : Prop :=
  ru_size r' = ru_size r /\ ru_komi r' = ru_komi r /\ ru_limit r' = ru_limit r /\
  ru_handicap r' = ru_handicap r /\ ru_stones r' = ru_stones r /\ ru_state r' = ru_state r.

Definition run_ok (s : Z) (limit : option Z) (x : run_state) (r : runner) (evs : list event) (r' : runner) : Prop :=
  exists y e final sc res,
    complete_game s limit has_cb x evs y e final sc /\ ru_moves r' = rs_record y /\
    ru_final r' = match final with Some d => Some d | None => ru_final r end /\
    ru_score r' = match sc with Some g => Some g | None => ru_score r end /\
    ru_result r' = Some res /\
    match sc with
    | Some g => scored_result (gs_winner g) (gs_margin g) res /\ r_detail res = score_detail g
    | None => unscored_result e res
    end.

Definition run_err (s : Z) (limit : option Z) (fuel : nat) (x : run_state) (r : runner) (evs : list event) (r' : runner) (e : exn) : Prop :=
  ru_result r' = ru_result r /\
  exists y, ru_moves r' = rs_record y /\ interrupted_game s limit has_cb x evs y /\
    (broke_off s evs e \/
     e = OutOfFuel /\ quiet_rounds s limit has_cb x evs y /\
     List.length (rs_record y) = (List.length (rs_record x) + fuel)%nat).

Lemma quiet_length s limit x evs y : quiet_round s limit has_cb x evs y ->
  List.length (rs_record y) = Datatypes.S (List.length (rs_record x)).
Proof. inversion 1; subst; cbn. rewrite app_length. cbn. lia. Qed.

Lemma quiet_cons s limit x evs y evs' z :
  quiet_round s limit has_cb x evs y -> quiet_rounds s limit has_cb y evs' z ->
  quiet_rounds s limit has_cb x (evs ++ evs') z.
Proof.
  intros A. induction 1 as [|evs1 y1 evs2 z1 Q IH R].
  - rewrite app_nil_r. change evs with ([] ++ evs). eapply qrs_step; [constructor|exact A].
  - rewrite app_assoc. eapply qrs_step; eassumption.
Qed.

Lemma broke_app s a b e : broke_off s b e -> broke_off s (a ++ b) e.
Proof. intros (bf & ev & -> & H). exists (a ++ bf), ev. rewrite app_assoc. auto. Qed.

Lemma set_result_ok s limit x r g s0 log r' s1 log' out evs2 y e final r0 :
  reports g e -> (e = PassedOut -> view (gm_board g) = s_pos (rs_sit y)) ->
  last_round s limit has_cb x evs2 y e final -> ru_moves r = rs_record y ->
  ru_final r = match final with Some d => Some d | None => ru_final r0 end ->
  same_setup r0 r ->
  set_result LB r g (s0, log) = (r', (s1, log'), out) ->
  same_config r0 r' /\
  exists evs3, log' = log ++ evs3 /\
  match out with
  | Ok _ => run_ok s limit x r0 (evs2 ++ evs3) r'
  | Err ex => ru_result r' = ru_result r0 /\ ru_moves r' = rs_record y /\ e = PassedOut /\ broke_off s (evs2 ++ evs3) ex
  end.
Proof.
  intros Re Vw LR Mv Fi (Q1 & Q2 & Q3 & Q4 & Q5 & Q6 & Q7 & Q8) H. unfold set_result in H.
  assert (gm_passed_out g = match e with PassedOut => true | _ => false end) as PO by (destruct Re as (_ & Q & _); exact Q).
  rewrite PO in H.
  assert (forall e', e' = e -> e <> PassedOut ->
    match result_from_unscored g with
    | Ok x0 => (with_result x0 r, (s0, log), Ok tt)
    | Err e0 => (r, (s0, log), Err e0)
    end = (r', (s1, log'), out) ->
    same_config r0 r' /\ (exists evs3, log' = log ++ evs3 /\ match out with
    | Ok _ => run_ok s limit x r0 (evs2 ++ evs3) r'
    | Err ex => ru_result r' = ru_result r0 /\ ru_moves r' = rs_record y /\ e = PassedOut /\ broke_off s (evs2 ++ evs3) ex
    end)) as Un.
  { intros e' _ NP H0. destruct (unscored_ok g e Re NP) as (res & E1 & U). rewrite E1 in H0.
    injection H0 as <- <- <- <-. split; [unfold same_config; cbn; auto 8|].
    exists []. split; [rewrite app_nil_r; reflexivity|].
    exists y, e, final, None, res. split.
    { exists [], x, evs2, []. split; [reflexivity|]. split; [constructor|].
      split; [exact LR|]. unfold scoring. destruct e; [congruence|auto..]. }
    cbn. rewrite Fi, Q6. auto 8. }
  destruct e as [| |c|c|c why]; [|eapply Un; eauto; discriminate..]. clear Un.
  destruct (b_score LB (gm_board g) (s0, log)) as [[s2 log2] rs] eqn:BS.
  change (b_score LB (gm_board g)) with (log1 (b_score B (gm_board g)) (EScore (gm_board g))) in BS.
  apply log1_eq in BS. destruct BS as (s2' & _ & Q). injection Q as -> ->.
  destruct rs as [sc|ex].
  - destruct (result_from_game_score sc) as [res|ex] eqn:RS; injection H as <- <- <- <-.
    + split; [unfold same_config; cbn; auto 8|]. eexists. split; [reflexivity|].
      exists y, PassedOut, final, (Some sc), res. split.
      { exists [], x, evs2, [EScore (gm_board g) (Ok sc)]. split; [reflexivity|]. split; [constructor|].
        split; [exact LR|]. exists (gm_board g), sc. split; [reflexivity|]. split; [|reflexivity].
        rewrite (Vw eq_refl). intros q _. reflexivity. }
      apply result_from_score_spec in RS. cbn. rewrite Fi. auto 8.
    + split; [unfold same_config; cbn; auto 8|]. eexists. split; [reflexivity|].
      cbn. split; [congruence|]. split; [exact Mv|]. split; [reflexivity|].
      apply result_err in RS. destruct RS as [-> NS]. apply broke_last.
      exists [], (EScore (gm_board g) (Ok sc)). split; [reflexivity|]. auto.
  - injection H as <- <- <- <-. split; [unfold same_config; cbn; auto 8|]. eexists. split; [reflexivity|].
    split; [congruence|]. split; [exact Mv|]. split; [reflexivity|]. apply broke_last.
    exists [], (EScore (gm_board g) (Err ex)). split; reflexivity.
Qed.

Lemma passed_out_last s limit x evs y final : last_round s limit has_cb x evs y PassedOut final ->
  exists m cm sit, legal_step s (rs_sit x) m sit /\ y = mkRS sit (rs_record x ++ [(s_turn (rs_sit x), m, cm)]).
Proof. inversion 1; subst. exists m, cm, y0. auto. Qed.

Lemma run_loop_ok s limit pick : s <= 25 -> forall fuel x streak r g s0 log r' s1 log' out,
  shows s limit g (mkGS (rs_sit x) streak None) -> ko_ok s (mkGS (rs_sit x) streak None) ->
  linked (rs_sit x) streak -> ru_moves r = rs_record x ->
  run_loop LB fuel pick r g (s0, log) = (r', (s1, log'), out) ->
  same_config r r' /\
  exists evs, log' = log ++ evs /\
  match out with
  | Ok _ => run_ok s limit x r evs r'
  | Err e => run_err s limit fuel x r evs r' e
  end.
Proof.
  intros S25. induction fuel as [|fuel IH]; intros x streak r g s0 log r' s1 log' out Sh Ko Li Mv H;
    pose proof Sh as (_ & _ & _ & _ & _ & En); cbn [gs_end] in En;
    destruct En as [IP [Nx _]]; assert (gm_over g = false) as OV by (destruct IP; assumption);
    cbn [run_loop] in H; rewrite OV in H.
  - injection H as <- <- <- <-. split; [unfold same_config; auto 8|]. exists []. split; [rewrite app_nil_r; reflexivity|].
    split; [reflexivity|]. exists x. split; [exact Mv|]. split.
    + exists [], x, []. split; [reflexivity|]. split; [constructor|]. auto.
    + right. split; [reflexivity|]. split; [constructor|]. lia.
  - rewrite Nx in H. cbn [gs_sit] in H.
    destruct (do_move LB pick r g (s0, log) (s_turn (rs_sit x))) as [[[r2 g2] [s2 log2]] [[]|e]] eqn:DM;
      apply (do_move_round s limit pick x streak r g s0 log r2 g2 s2 log2 _ S25 Sh Ko Li Mv) in DM.
    + destruct DM as [SS (evs & -> & [(y & streak' & QR & Sh2 & Ko2 & Li2 & Mv2 & Fi2)|(y & e & final & LR & Re & Vw & Mv2 & Fi2)])].
      * apply (IH y streak' r2 g2 s2 _ r' s1 log' out Sh2 Ko2 Li2 Mv2) in H.
        destruct H as [SC (evs' & -> & H)].
        destruct SS as (Q1 & Q2 & Q3 & Q4 & Q5 & Q6 & Q7 & Q8).
        split. { unfold same_config in *. intuition congruence. }
        exists (evs ++ evs'). split; [rewrite app_assoc; reflexivity|].
        destruct out as [[]|e].
        -- destruct H as (y' & e & final & sc & res & (e1 & z & e2 & e3 & -> & Qs & LR & Scr) & A1 & A2 & A3 & A4 & A5).
           exists y', e, final, sc, res. split.
           { exists (evs ++ e1), z, e2, e3. split; [rewrite <- app_assoc; reflexivity|].
             split; [eapply quiet_cons; eassumption|]. auto. }
           rewrite A2, A3, Fi2, Q6. auto 8.
        -- destruct H as (A1 & y' & A2 & (e1 & z & e2 & -> & Qs & A3) & A4).
           split; [congruence|]. exists y'. split; [exact A2|]. split.
           { exists (evs ++ e1), z, e2. split; [rewrite <- app_assoc; reflexivity|].
             split; [eapply quiet_cons; eassumption|]. exact A3. }
           destruct A4 as [A4|(-> & A4 & A5)]; [left; apply broke_app; exact A4|].
           right. split; [reflexivity|]. split; [eapply quiet_cons; eassumption|].
           rewrite A5, (quiet_length _ _ _ _ _ QR). lia.
      * assert (gm_over g2 = true) as O2 by (destruct Re; assumption).
        assert (set_result LB r2 g2 (s2, log ++ evs) = (r', (s1, log'), out)) as SR.
        { destruct fuel; cbn [run_loop] in H; rewrite O2 in H; exact H. }
        apply (set_result_ok s limit x r2 g2 s2 _ r' s1 log' out evs y e final r Re Vw LR Mv2 Fi2 SS) in SR.
        destruct SR as [SC (evs3 & -> & SR)]. split; [exact SC|].
        exists (evs ++ evs3). split; [rewrite app_assoc; reflexivity|].
        destruct out as [[]|ex]; [exact SR|]. destruct SR as (A1 & A2 & -> & A3).
        split; [exact A1|]. exists y. split; [exact A2|]. split; [|left; exact A3].
        exists [], x, (evs ++ evs3). split; [reflexivity|]. split; [constructor|]. right.
        exact (passed_out_last _ _ _ _ _ _ LR).
    + injection H as <- <- <- <-.
      destruct DM as [(Q1 & Q2 & Q3 & Q4 & Q5 & Q6 & Q7 & Q8) (evs & -> & BO & y & Mv2 & Y)].
      split; [unfold same_config; auto 8|]. exists evs. split; [reflexivity|].
      split; [exact Q7|]. exists y. split; [exact Mv2|]. split; [|left; exact BO].
      exists [], x, evs. split; [reflexivity|]. split; [constructor|]. exact Y.
Qed.

Lemma clears_all_ext s a a' b : same_on s a a' -> clears_all s a b -> clears_all s a' b.
Proof.
  intros H C p Op. destruct (C p Op) as [C1 C2].
  rewrite <- (has_liberty_iff s a a') by auto. rewrite <- (H p Op). auto.
Qed.

Lemma make_game_ok pick r size limit stones :
  2 <= size -> ready r size limit stones ->
  (forall p, In p (match stones with Some l => l | None => [] end) -> on_board size p) ->
  exists b, make_game pick r = Ok (new_ggame b limit (first_player stones)) /\ reachable size b /\
    starting_position size stones (view b).
Proof.
  intros S2 (Q1 & Q2 & Q3 & _) O. unfold make_game. rewrite Q1, Q2, Q3.
  assert (exists b, new_board size = Ok b) as (b & NB).
  { unfold new_board. destruct (Z.ltb_spec size 2); [lia|]. eauto. }
  destruct (new_board_good size b NB) as (_ & _ & V). rewrite NB. cbn [bind].
  assert (reachable size b) as Rb by (apply reach_new; exact NB).
  assert (starting_position size (Some []) (view b)) as Emp.
  { intros p _. unfold setup_position. cbn. rewrite V. split; [tauto|reflexivity]. }
  destruct stones as [[|p0 pts]|].
  - exists b. split; [reflexivity|]. split; [exact Rb|exact Emp].
  - destruct (C05_proof pick size b (p0 :: pts) [] [] Rb) as (b' & f & E1 & E2 & _).
    { intros p I. rewrite !app_nil_r in I. auto. }
    rewrite E1. exists b'. split; [reflexivity|]. split.
    { replace b' with (apply_op pick b (OpSetup (p0 :: pts) [] [])) by (cbn [apply_op]; rewrite E1; reflexivity).
      apply reach_op. exact Rb. }
    apply (clears_all_ext size (setup_position (view b) (p0 :: pts) [] [])); [|exact E2].
    intros q _. unfold setup_position. rewrite V. reflexivity.
  - exists b. split; [reflexivity|]. split; [exact Rb|exact Emp].
Qed.

Theorem run_correct pick fuel r s0 r' s1 log out size limit stones :
  2 <= size <= 25 -> ready r size limit stones ->
  (forall p, In p (match stones with Some l => l | None => [] end) -> on_board size p) ->
  run LB fuel pick r (s0, []) = (r', (s1, log), out) ->
  exists pos, starting_position size stones pos /\
    let x := mkRS (start pos (first_player stones)) [] in
    match out with
    | Ok _ => exists y e final sc res,
        complete_game size limit has_cb x log y e final sc /\ ru_moves r' = rs_record y /\
        ru_final r' = final /\ ru_score r' = sc /\ ru_result r' = Some res /\
        match sc with
        | Some g => scored_result (gs_winner g) (gs_margin g) res /\ r_detail res = score_detail g
        | None => unscored_result e res
        end
    | Err e => ru_result r' = None /\
        exists y, ru_moves r' = rs_record y /\ interrupted_game size limit has_cb x log y /\
          (broke_off size log e \/
           e = OutOfFuel /\ quiet_rounds size limit has_cb x log y /\ List.length (rs_record y) = fuel)
    end.
Proof.
  intros [S2 S25] Rd O H.
  destruct (make_game_ok pick r size limit stones S2 Rd O) as (b & MG & Rb & SP).
  destruct Rd as (Q1 & Q2 & Q3 & Q4 & Q5 & Q6 & Q7 & Q8).
  unfold run in H. rewrite MG in H.
  assert ((ru_state r =? 1) || (ru_state r =? 2) = true) as ST.
  { destruct Q8 as [-> | ->]; reflexivity. }
  rewrite ST in H. cbn [negb] in H.
  exists (view b). split; [exact SP|].
  set (x := mkRS (start (view b) (first_player stones)) []).
  apply (run_loop_ok size limit pick S25 fuel x 0%nat (with_state 3 r) _ s0 [] r' s1 log out) in H.
  - destruct H as [_ (evs & E & H)]. cbn [app] in E. subst evs. destruct out as [[]|e].
    + destruct H as (y & e & final & sc & res & A1 & A2 & A3 & A4 & A5 & A6).
      cbn in A3, A4. rewrite Q5 in A3. rewrite Q6 in A4.
      exists y, e, final, sc, res. split; [exact A1|]. split; [exact A2|].
      split; [destruct final; exact A3|]. split; [destruct sc; exact A4|]. auto.
    + destruct H as (A1 & y & A2 & A3 & A4). cbn in A1. rewrite Q7 in A1. split; [exact A1|].
      exists y. auto.
  - apply new_game_shows. exact Rb.
  - intros p K. discriminate.
  - split; [lia|reflexivity].
  - cbn. exact Q4.
Qed.

(** ** Consequences of the shape of a run *)

Definition rs_ok (s : Z) (limit : option Z) (pos : position) (first : colour) (x : run_state) : Prop :=
  legal_game s (start pos first) (rs_sit x) /\ moves_only (rs_record x) = s_moves (rs_sit x) /\
  (rs_record x = [] \/ ~ limit_reached limit (s_moves (rs_sit x))).

Lemma quiet_rs_ok s limit pos first x evs y :
  quiet_round s limit has_cb x evs y -> rs_ok s limit pos first x -> rs_ok s limit pos first y.
Proof.
  intros Q (A & B1 & C). inversion Q; subst. unfold rs_ok. cbn [rs_sit rs_record].
  split; [eapply lg_step; eassumption|]. split.
  - unfold moves_only in *. rewrite map_app, B1. cbn. symmetry. eapply legal_step_moves; eassumption.
  - right. match goal with H : after_step _ _ _ None |- _ => inversion H; subst end. assumption.
Qed.

Lemma quiets_rs_ok s limit pos first x evs y :
  quiet_rounds s limit has_cb x evs y -> rs_ok s limit pos first x -> rs_ok s limit pos first y.
Proof. induction 1; auto. intros H2. eapply quiet_rs_ok; eauto. Qed.

Lemma rs_ok_start s limit pos first : rs_ok s limit pos first (mkRS (start pos first) []).
Proof. split; [constructor|]. split; [reflexivity|]. left; reflexivity. Qed.

Lemma rs_ok_len s limit pos first x : rs_ok s limit pos first x ->
  forall n, limit = Some n -> Z.of_nat (List.length (rs_record x)) < Z.max 1 n.
Proof.
  intros (_ & B1 & C) n ->. destruct C as [-> | C]; [cbn; lia|].
  assert (List.length (rs_record x) = List.length (s_moves (rs_sit x))) as E.
  { rewrite <- B1. unfold moves_only. rewrite map_length. reflexivity. }
  assert (~ n <= Z.of_nat (List.length (s_moves (rs_sit x)))) as NL by (intros L; apply C; exists n; auto). lia.
Qed.

Lemma rs_ok_record s limit pos first x : rs_ok s limit pos first x ->
  record_is_legal s limit pos first (rs_record x).
Proof.
  intros K. pose proof K as (A & B1 & C). exists (rs_sit x). split; [exact A|]. split; [exact B1|]. split.
  - rewrite B1. apply (legal_game_turn s first _ _ A). split; [exact I|reflexivity].
  - intros n En. pose proof (rs_ok_len _ _ _ _ _ K n En). lia.
Qed.

Lemma step_record s limit pos first z m cm sit : rs_ok s limit pos first z ->
  legal_step s (rs_sit z) m sit ->
  record_is_legal s limit pos first (rs_record z ++ [(s_turn (rs_sit z), m, cm)]).
Proof.
  intros K L. pose proof K as (A & B1 & _).
  assert (legal_game s (start pos first) sit) as A2 by (eapply lg_step; eassumption).
  assert (moves_only (rs_record z ++ [(s_turn (rs_sit z), m, cm)]) = s_moves sit) as B2.
  { unfold moves_only in *. rewrite map_app, B1. cbn. symmetry. eapply legal_step_moves; eassumption. }
  exists sit. split; [exact A2|]. split; [exact B2|]. split.
  - rewrite B2. apply (legal_game_turn s first _ _ A2). split; [exact I|reflexivity].
  - intros n En. pose proof (rs_ok_len _ _ _ _ _ K n En). rewrite app_length. cbn. lia.
Qed.

Lemma last_record s limit pos first z evs y e final : rs_ok s limit pos first z ->
  last_round s limit has_cb z evs y e final -> record_is_legal s limit pos first (rs_record y).
Proof.
  intros K L. inversion L; subst; try (apply rs_ok_record; exact K).
  cbn [rs_record]. eapply step_record; eassumption.
Qed.

Theorem run_record pick fuel r s0 r' s1 log out size limit stones :
  2 <= size <= 25 -> ready r size limit stones ->
  (forall p, In p (match stones with Some l => l | None => [] end) -> on_board size p) ->
  run LB fuel pick r (s0, []) = (r', (s1, log), out) ->
  exists pos, starting_position size stones pos /\
    record_is_legal size limit pos (first_player stones) (ru_moves r').
Proof.
  intros S2 Rd O H. destruct (run_correct pick fuel r s0 r' s1 log out size limit stones S2 Rd O H) as (pos & SP & K).
  exists pos. split; [exact SP|]. cbn zeta in K.
  pose proof (rs_ok_start size limit pos (first_player stones)) as K0.
  destruct out as [[]|e].
  - destruct K as (y & e & final & sc & res & (e1 & z & e2 & e3 & -> & Qs & LR & _) & -> & _).
    eapply last_record; [|exact LR]. eapply quiets_rs_ok; eassumption.
  - destruct K as (_ & y & -> & (e1 & z & e2 & -> & Qs & Y) & _).
    assert (rs_ok size limit pos (first_player stones) z) as Kz by (eapply quiets_rs_ok; eassumption).
    destruct Y as [-> | (m & cm & sit & L & ->)]; [apply rs_ok_record; exact Kz|].
    cbn [rs_record]. eapply step_record; eassumption.
Qed.

Lemma count_quiet s limit x evs y : quiet_round s limit has_cb x evs y -> filter is_end evs = [].
Proof.
  inversion 1; subst. unfold callback_events in *. destruct has_cb.
  - match goal with H : exists b, _ |- _ => destruct H as (b & -> & _) end. reflexivity.
  - subst. reflexivity.
Qed.
Lemma count_quiets s limit x evs y : quiet_rounds s limit has_cb x evs y -> filter is_end evs = [].
Proof.
  induction 1 as [|evs y evs' z Q IH Q1]; [reflexivity|]. rewrite filter_app, IH. exact (count_quiet _ _ _ _ _ Q1).
Qed.
Lemma count_last s limit x evs y e final : last_round s limit has_cb x evs y e final ->
  filter is_end evs = [EEnd (Ok tt)].
Proof.
  inversion 1; subst; try reflexivity. unfold callback_events in *. destruct has_cb.
  - match goal with H : exists b, _ |- _ => destruct H as (b & -> & _) end. reflexivity.
  - subst. reflexivity.
Qed.

Theorem run_ends_once pick fuel r s0 r' s1 log size limit stones :
  2 <= size <= 25 -> ready r size limit stones ->
  (forall p, In p (match stones with Some l => l | None => [] end) -> on_board size p) ->
  run LB fuel pick r (s0, []) = (r', (s1, log), Ok tt) ->
  filter is_end log = [EEnd (Ok tt)].
Proof.
  intros S2 Rd O H. destruct (run_correct pick fuel r s0 r' s1 log _ size limit stones S2 Rd O H) as (pos & SP & K).
  destruct K as (y & e & final & sc & res & (e1 & z & e2 & e3 & -> & Qs & LR & Sc) & _).
  rewrite !filter_app, (count_quiets _ _ _ _ _ Qs), (count_last _ _ _ _ _ _ _ LR).
  assert (filter is_end e3 = []) as ->; [|reflexivity].
  unfold scoring in Sc. destruct e; try (destruct Sc as [-> _]; reflexivity).
  destruct Sc as (b & g & -> & _). reflexivity.
Qed.

Theorem run_terminates pick fuel r s0 r' s1 log e size n stones :
  2 <= size <= 25 -> ready r size (Some n) stones ->
  (forall p, In p (match stones with Some l => l | None => [] end) -> on_board size p) ->
  Z.max 1 n <= Z.of_nat fuel ->
  run LB fuel pick r (s0, []) = (r', (s1, log), Err e) ->
  broke_off size log e.
Proof.
  intros S2 Rd O F H. destruct (run_correct pick fuel r s0 r' s1 log _ size (Some n) stones S2 Rd O H) as (pos & SP & K).
  destruct K as (_ & y & _ & _ & [K|(_ & Qs & Ln)]); [exact K|]. exfalso.
  assert (rs_ok size (Some n) pos (first_player stones) y) as Ky.
  { eapply quiets_rs_ok; [exact Qs|apply rs_ok_start]. }
  pose proof (rs_ok_len _ _ _ _ _ Ky n eq_refl). lia.
Qed.

End Run.

(** ** Logging changes nothing *)

Section Transparent.
Context {S : Type}.
Variable B : backend S.
Notation LB := (logged B).

Definition forget {A X : Type} (o : A * (S * list event) * X) : A * S * X :=
  match o with (a, (s, _), r) => (a, s, r) end.
Definition forget4 {A A' X : Type} (o : A * A' * (S * list event) * X) : A * A' * S * X :=
  match o with (a, a', (s, _), r) => (a, a', s, r) end.

Lemma set_over_forget g s l :
  forget (set_over (over_callback LB) g (s, l)) = set_over (over_callback B) g s.
Proof.
  unfold set_over. cbn [over_callback]. change (b_end LB) with (log1 (b_end B) EEnd). unfold log1. cbn [fst snd].
  destruct (b_end B s). reflexivity.
Qed.

Lemma call_forget pick g s l o :
  forget (call (over_callback LB) pick g (s, l) o) = call (over_callback B) pick g s o.
Proof.
  assert (forall g s l c why, forget (record_forfeit_by (over_callback LB) g (s, l) c why) = record_forfeit_by (over_callback B) g s c why) as F.
  { intros g0 s0 l0 c why. unfold record_forfeit_by. destruct (gm_over g0); [reflexivity|apply set_over_forget]. }
  assert (forall g s l c, forget (after_move (over_callback LB) g (s, l) c) = after_move (over_callback B) g s c) as A.
  { intros g0 s0 l0 c. unfold after_move. destruct (_ =? 2); [apply set_over_forget|].
    destruct (match gm_limit _ with None => false | Some l => l <=? _ end); [apply set_over_forget|reflexivity]. }
  destruct o as [c m|c|c|c why]; cbn [call].
  - unfold record_move. destruct (gm_over g); [reflexivity|]. destruct (negb _); [reflexivity|].
    destruct m as [[row col]|]; [|apply A].
    destruct (opoint_eqb _ _).
    + destruct (format_vertex _); [apply F|reflexivity].
    + destruct (play pick (gm_board g) row col c) as [b' [ko|[]]]; try reflexivity; [apply A|].
      destruct (format_vertex _); [apply F|reflexivity].
  - unfold record_resignation_by. destruct (gm_over g); [reflexivity|apply set_over_forget].
  - unfold record_claim_by. destruct (gm_over g); [reflexivity|apply set_over_forget].
  - apply F.
Qed.

Ltac step_log := unfold log1; cbn [fst snd].

Lemma ended_forget r c (o : ggame * (S * list event) * res unit) :
  forget4 (ended_without_move LB r c o) = ended_without_move B r c (forget o).
Proof.
  destruct o as [[g [s l]] [[]|e]]; cbn [ended_without_move forget]; [|reflexivity].
  change (b_comment LB c) with (log1 (b_comment B c) (EComment c)). step_log.
  destruct (b_comment B c s) as [s1 [cm|e]]; reflexivity.
Qed.

Lemma do_move_forget pick r g s l c :
  forget4 (do_move LB pick r g (s, l) c) = do_move B pick r g s c.
Proof.
  unfold do_move. change (b_get_move LB c) with (log1 (b_get_move B c) (EGetMove c)). step_log.
  destruct (b_get_move B c s) as [s1 [[m|why| | |]|e]]; cbn [snd fst]; try reflexivity.
  - pose proof (call_forget pick g s1 (l ++ [EGetMove c (Ok (AMove m))]) (CMove c m)) as CF. cbn [call] in CF.
    destruct (record_move (over_callback LB) pick g (s1, l ++ [EGetMove c (Ok (AMove m))]) c m) as [[g2 [s2 l2]] r2].
    rewrite <- CF. cbn [forget]. destruct r2 as [[]|e]; [|reflexivity].
    change (b_comment LB c) with (log1 (b_comment B c) (EComment c)). step_log.
    destruct (b_comment B c s2) as [s3 [cm|e]]; [|reflexivity].
    destruct (gm_forfeited g2); [reflexivity|].
    change (b_notify LB (opponent_of c) m) with (log1 (b_notify B (opponent_of c) m) (ENotify (opponent_of c) m)). step_log.
    destruct (b_notify B (opponent_of c) m s3) as [s4 [st|e]]; [|reflexivity].
    assert (forall s l loser msg,
      forget4 (match record_forfeit_by (over_callback LB) g2 (s, l) loser msg with
      | (g5, s5, Err e) => (r, g5, s5, Err e)
      | (g5, s5, Ok _) => (set_final c cm r, g5, s5, Ok tt)
      end) = match record_forfeit_by (over_callback B) g2 s loser msg with
      | (g5, s5, Err e) => (r, g5, s5, Err e)
      | (g5, s5, Ok _) => (set_final c cm r, g5, s5, Ok tt)
      end) as FF.
    { intros s5 l5 loser msg. pose proof (call_forget pick g2 s5 l5 (CForfeit loser msg)) as CF5. cbn [call] in CF5.
      rewrite <- CF5.
      destruct (record_forfeit_by (over_callback LB) g2 (s5, l5) loser msg) as [[g5 [s6 l6]] [[]|e]]; reflexivity. }
    assert (forall s l,
      forget4 (let r5 := add_move (c, m, cm) r in
        match b_after LB with
        | None => (r5, g2, (s, l), Ok tt)
        | Some f => let (s5, x) := f c m (gm_board g2) (s, l) in (r5, g2, s5, x)
        end) =
      (let r5 := add_move (c, m, cm) r in
        match b_after B with
        | None => (r5, g2, s, Ok tt)
        | Some f => let (s5, x) := f c m (gm_board g2) s in (r5, g2, s5, x)
        end)) as AA.
    { intros s5 l5. cbn [logged b_after]. destruct (b_after B) as [f|]; [|reflexivity].
      unfold log1. cbn [fst snd]. destruct (f c m (gm_board g2) s5). reflexivity. }
    destruct st as [|msg|msg|]; [| | |reflexivity]; destruct (gm_over g2); try apply AA; apply FF.
  - rewrite ended_forget. f_equal. exact (call_forget pick g s1 (l ++ [EGetMove c (Ok (AForfeit why))]) (CForfeit c why)).
  - rewrite ended_forget. f_equal. exact (call_forget pick g s1 (l ++ [EGetMove c (Ok AResign)]) (CResign c)).
  - rewrite ended_forget. f_equal. exact (call_forget pick g s1 (l ++ [EGetMove c (Ok AClaim)]) (CClaim c)).
Qed.

Lemma set_result_forget r g s l : forget (set_result LB r g (s, l)) = set_result B r g s.
Proof.
  unfold set_result. destruct (gm_passed_out g).
  - change (b_score LB (gm_board g)) with (log1 (b_score B (gm_board g)) (EScore (gm_board g))). step_log.
    destruct (b_score B (gm_board g) s) as [s1 [sc|e]]; [|reflexivity].
    destruct (result_from_game_score sc); reflexivity.
  - destruct (result_from_unscored g); reflexivity.
Qed.

Lemma run_loop_forget pick : forall fuel r g s l,
  forget (run_loop LB fuel pick r g (s, l)) = run_loop B fuel pick r g s.
Proof.
  induction fuel as [|fuel IH]; intros r g s l; cbn [run_loop]; destruct (gm_over g);
    try apply set_result_forget; [reflexivity|].
  destruct (gm_next g) as [c|]; [|reflexivity].
  rewrite <- (do_move_forget pick r g s l c).
  destruct (do_move LB pick r g (s, l) c) as [[[r1 g1] [s1 l1]] [[]|e]]; cbn [forget4]; [apply IH|reflexivity].
Qed.

Theorem run_transparent fuel pick r s l :
  forget (run LB fuel pick r (s, l)) = run B fuel pick r s.
Proof.
  unfold run. destruct (negb _); [reflexivity|]. destruct (make_game pick r); [apply run_loop_forget|reflexivity].
Qed.

End Transparent.
