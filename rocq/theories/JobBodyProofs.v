(** The part of a game job that may be aborted (C62). *)
From Verif Require Import Base Bytes PyStr Dict BoardModel BoardSpec CommonModel GameplayModel GameplaySpec GameplayProps
  ControllerModel ControllerSpec ControllerProofs
  GtpGameModel GtpGameSpec EngineModel EngineSpec EngineDialogueProofs JobSgfModel JobRunModel JobRunSpec JobKeptProofs JobLiveProofs JobTalkProofs JobStonesProofs.

Section Body.
Context {X : Type} (ch : colour -> channel X).
Variables (sanitise : bytes -> bytes) (pick : nat -> nat) (os_environ : dict bytes).
Variable spawn : colour -> list bytes -> dict bytes -> option bytes -> X + bytes.
Variable error_text : gtp_game (X * list cevent) -> exn -> bytes.
Variable j : game_job.
Variable worker : option Z.
Notation ctl := (controller (X * list cevent)).
Notation gc := (gctl (X * list cevent)).
Notation chr := (fun c => recorded (ch c)).
Notation run_s := (running (X * list cevent)).
Notation start := (start_job_player chr sanitise os_environ (watched spawn) j worker).
Notation reason := (abort_reason j error_text).

Definition adjusted (c : colour) (b : gbackend (X * list cevent)) : gbackend (X * list cevent) :=
  let b1 := if may_score j c then allow_scorer c b else b in
  if gp_claims (job_player j c) then set_claim_allowed c b1 else b1.

Lemma adjusted_gc c b : gb_gc (adjusted c b) = gb_gc b.
Proof. unfold adjusted. destruct (may_score j c), (gp_claims (job_player j c)); reflexivity. Qed.

(** The states agree on the game, apart from its backend, and on the engine of [d]. *)
Record same_but (s s' : run_s) : Prop := mkSameBut {
  sb_runner : ga_runner (rn_game s') = ga_runner (rn_game s);
  sb_id : ga_id (rn_game s') = ga_id (rn_game s);
  sb_result : ga_result (rn_game s') = ga_result (rn_game s);
  sb_cpu : ga_cpu_errors (rn_game s') = ga_cpu_errors (rn_game s)
}.

Definition found (t : list cevent) (c : colour) (s : run_s) : Prop := exists e, rn_engine c s = Some e /\ introduced sanitise t e.

Definition trouble_at {A} (c : colour) (r : cres A) : Prop := match r with CBad m _ | CChan _ m => player_trouble j c m | _ => True end.
Definition spawn_fails (c : colour) : Prop :=
  exists text, spawn c (gp_cmd (job_player j c)) (job_environ os_environ j worker (job_player j c)) (gp_cwd (job_player j c)) = inr text.

Lemma about_trouble c m : about j c m -> player_trouble j c m.
Proof. intros (text & H). exact (pt_engine j c m text H). Qed.
Lemma wrong_trouble {A} c (r : cres A) : wrong_message j c r -> trouble_at c r.
Proof. destruct r; cbn; auto; apply about_trouble. Qed.

Lemma start_player_proof c s s' r :
  g_code c (rn_gc s) = gp_code (job_player j c) -> g_cautious (rn_gc s) = false ->
  start c s = (s', r) ->
  same_but s s' /\ (forall d, d <> c -> rn_engine d s' = rn_engine d s) /\ trouble_at c r /\
  exists g, rn_backend s' = with_gc g (adjusted c (rn_backend s)) /\
    ((g = rn_gc s /\ spawn_fails c /\ exists kd m, r = CChan kd m) \/
     exists k, g = g_put c k (rn_gc s) /\ partly ch j c k /\
       (forall u, r = CRet u -> exists t, (forall pre, pre c = t -> said ch j pre c k (gp_startup (job_player j c))) /\ found t c s')).
Proof.
  intros Code Caut H. unfold start_job_player in H.
  set (s0 := put_backend (adjusted c (rn_backend s)) s).
  assert (put_backend (if gp_claims (job_player j c)
       then set_claim_allowed c (if negb (gj_internal j) && gp_reliable (job_player j c) then allow_scorer c (rn_backend s) else rn_backend s)
       else if negb (gj_internal j) && gp_reliable (job_player j c) then allow_scorer c (rn_backend s) else rn_backend s) s = s0) as E0 by reflexivity.
  cbv zeta in H. rewrite E0 in H. clear E0.
  assert (G0 : rn_gc s0 = rn_gc s) by (apply adjusted_gc).
  unfold set_player_subprocess in H. rewrite G0, Code in H. cbv zeta in H. unfold watched in H.
  assert (Put : forall k t, rn_gc t = rn_gc s -> rn_backend (put_gc (g_put c k (rn_gc t)) t) = with_gc (g_put c k (rn_gc s)) (rn_backend t)).
  { intros k t Et. rewrite Et. reflexivity. }
  assert (Same0 : same_but s s0) by (constructor; reflexivity).
  assert (B0 : rn_backend s0 = adjusted c (rn_backend s)) by reflexivity.
  destruct (spawn c (gp_cmd (job_player j c)) (job_environ os_environ j worker (job_player j c)) (gp_cwd (job_player j c))) as [x|text] eqn:Sp.
  2:{ injection H as <- <-. split; [exact Same0|]. split; [destruct c; reflexivity|]. split.
      - cbn [trouble_at]. unfold colon_lf. exact (pt_spawn j c text).
      - exists (rn_gc s). split; [|left; split; [reflexivity|split; [exists text; exact Sp|eauto]]]. rewrite B0. rewrite <- G0. unfold rn_gc. rewrite B0. destruct (adjusted c (rn_backend s)); reflexivity. }
  unfold set_player_controller in H. fold (player_called (gp_code (job_player j c))) in H.
  set (name := player_called (gp_code (job_player j c))) in *.
  pose proof (greeting_steps (ch c) sanitise x name) as GS. cbv zeta in GS.
  set (k0 := new_controller (x, []) name) in *.
  assert (Mk : forall k l d, step (ch c) k0 k l -> prefix_of l (greeting d) -> partly ch j c k).
  { intros k l d St P. destruct (some_handicapping j c) as (h & Hh). constructor.
    - exact (sp_live _ _ _ _ St).
    - rewrite (sp_name _ _ _ _ St). reflexivity.
    - left. rewrite (sp_aliases _ _ _ _ St). reflexivity.
    - exists d, h. split; [exact Hh|]. rewrite (sp_sent _ _ _ _ St). cbn [trace]. change (sent (trace k0)) with (@nil command). cbn [app].
      apply prefix_more. exact P. }
  assert (SameP : forall k t, same_but s t -> same_but s (put_gc (g_put c k (rn_gc t)) t)) by (intros k t [A B C D]; constructor; assumption).
  (* failing with the controller in place *)
  assert (Fail : forall k l d (r' : cres unit), step (ch c) k0 k l -> prefix_of l (greeting d) -> (forall u, r' <> CRet u) ->
     match r' with CBad m _ | CChan _ m => (exists v, m = name ++ str " reports GTP protocol version " ++ v) \/ (exists text, message_about name m text) | _ => True end ->
     (put_gc (g_put c k (rn_gc s0)) s0, r') = (s', r) ->
     same_but s s' /\ (forall d, d <> c -> rn_engine d s' = rn_engine d s) /\ trouble_at c r /\
     exists g, rn_backend s' = with_gc g (adjusted c (rn_backend s)) /\
      ((g = rn_gc s /\ spawn_fails c /\ exists kd m, r = CChan kd m) \/
       exists k, g = g_put c k (rn_gc s) /\ partly ch j c k /\
         (forall u, r = CRet u -> exists t, (forall pre, pre c = t -> said ch j pre c k (gp_startup (job_player j c))) /\ found t c s'))).
  { intros k l d r' St P NR W E. injection E as <- <-. split; [apply SameP, Same0|]. split; [intros e _; destruct e; reflexivity|]. split.
    - destruct r' as [u|m y|kd m|e]; cbn [trouble_at]; auto.
      + destruct W as [(v & ->)|(text & W)]; [exact (pt_version j c v)|exact (pt_engine j c m text W)].
      + destruct W as [(v & ->)|(text & W)]; [exact (pt_version j c v)|exact (pt_engine j c m text W)].
    - exists (g_put c k (rn_gc s)). split; [rewrite Put by exact G0; rewrite B0; reflexivity|]. right. exists k. split; [reflexivity|].
      split; [exact (Mk k l d St P)|]. intros u Q. elim (NR u Q). }
  destruct (check_protocol_version (recorded (ch c)) k0) as [k1 r1]. destruct r1 as [u|m y|kd m|e].
  2-4: destruct GS as [St W]; match type of H with (_, ?r0) = _ => eapply (Fail k1 _ false r0) end; [exact St|eexists; reflexivity|discriminate|exact W|exact H].
  destruct (from_controller sanitise (recorded (ch c)) k1) as [k2 r2]. destruct GS as (d & l & St & P & W). cbn [fst snd] in St, W.
  destruct r2 as [en|m y|kd m|e].
  2-4: match type of H with (_, ?r0) = _ => eapply (Fail k2 _ d r0) end; [exact St|exact P|discriminate|try (right; exact W); exact I|exact H].
  destruct W as (-> & En). clear Fail.
  set (s1 := put_engine c en (put_gc (g_put c k2 (rn_gc s0)) s0)) in H.
  assert (G1 : rn_gc s1 = g_put c k2 (rn_gc s)) by (unfold s1; rewrite G0; destruct c; reflexivity).
  rewrite G1, get_it in H. set (k3 := set_gtp_aliases (gp_aliases (job_player j c)) k2) in H.
  rewrite put_again in H. set (s2 := put_gc (g_put c k3 (rn_gc s)) s1) in H.
  change (rn_gc s2) with (g_put c k3 (rn_gc s)) in H.
  assert (Sd : forall pre, pre c = trace k2 -> said ch j pre c k3 []).
  { intros pre Ep. constructor.
    - apply live_aliases. exact (sp_live _ _ _ _ St).
    - change (c_name k3) with (c_name k2). rewrite (sp_name _ _ _ _ St). reflexivity.
    - reflexivity.
    - rewrite Ep. apply prefix_refl.
    - exists d. change (trace k3) with (trace k2). rewrite (sp_sent _ _ _ _ St). cbn [map]. rewrite app_nil_r. reflexivity. }
  assert (Caut3 : g_cautious (g_put c k3 (rn_gc s)) = false) by (rewrite cautious_put; exact Caut).
  destruct (send_all chr (g_put c k3 (rn_gc s)) c (gp_startup (job_player j c))) as [g4 r4] eqn:S4.
  destruct (send_all_said ch j (fun _ => trace k2) _ _ _ _ _ _ _ Caut3 (get_it c k3 (rn_gc s)) (Sd (fun _ => trace k2) eq_refl) S4) as (k4 & m & Eg & Sd4 & P4 & W4 & O4).
  rewrite put_again in Eg. subst g4. injection H as <- <-. cbn [app] in Sd4.
  assert (Same2 : same_but s s2) by (unfold s2, s1; destruct c; constructor; reflexivity).
  split; [destruct Same2 as [A B C D]; constructor; assumption|].
  split; [intros e Ne; unfold s2, s1; destruct c, e; try reflexivity; congruence|].
  split; [eapply wrong_trouble; exact W4|].
  exists (g_put c k4 (rn_gc s)). split; [unfold s2, s1; destruct c; reflexivity|]. right. exists k4. split; [reflexivity|].
  destruct (some_handicapping j c) as (h & Hh). split.
  - eapply said_partly; [exact Sd4|exact Hh|]. apply prefix_more. exact P4.
  - intros u0 Q. rewrite (O4 u0 Q) in Sd4. exists (trace k2). split.
    + intros pre Ep. destruct Sd4 as [L N A Pr S]. constructor; auto. rewrite Ep. exact Pr.
    + exists en. split; [unfold s2, s1; destruct c; reflexivity|exact En].
Qed.

Section After.
(** How the conversations began. *)
Variable pre : colour -> list cevent.

(** What has been said to an engine: only part of what comes before the game; or all of it, and
    more. *)
Record complete (c : colour) (k : ctl) : Prop := mkComplete {
  cm_live : live (ch c) k;
  cm_name : c_name k = player_called (gp_code (job_player j c));
  cm_aliases : c_aliases k = gp_aliases (job_player j c);
  cm_pre : prefix_of (pre c) (trace k);
  cm_sent : exists d h rest, handicapping j c h /\ sent (trace k) = opening j c d h ++ rest
}.
Definition opened (c : colour) (k : ctl) : Prop := partly ch j c k \/ complete c k.

Definition quiet (s : run_s) : Prop :=
  g_late (rn_gc s) = [] /\ g_code_b (rn_gc s) = gp_code (gj_b j) /\ g_code_w (rn_gc s) = gp_code (gj_w j).

Definition fuel : nat := Z.to_nat (Z.max 1 (gj_limit j)).

(** The game was played, with outcome [out]. *)
Definition game_from (s : run_s) (out : res unit) (g0 : gtp_game (X * list cevent)) (stones : option (list point)) (kb kw : ctl) : Prop :=
  ready (ga_runner g0) (gj_size j) (Some (gj_limit j)) stones /\ ru_komi (ga_runner g0) = gj_komi j /\
  engaged ch (ga_backend g0) /\ as_ordered j (ga_backend g0) /\ ga_id g0 = Some (gj_id j) /\ ga_result g0 = None /\
  g_get Black (gb_gc (ga_backend g0)) = Some kb /\ g_get White (gb_gc (ga_backend g0)) = Some kw /\ stones_from j kb kw stones /\
  (forall c k, g_get c (gb_gc (ga_backend g0)) = Some k ->
     exists d h, handicapping j c h /\ sent (trace k) = opening j c d h) /\
  run_gtp_game chr sanitise pick None fuel g0 = (rn_game s, out).
Definition played (s : run_s) (out : res unit) : Prop :=
  (forall c, found (pre c) c s) /\ (forall c, exists k, g_get c (rn_gc s) = Some k /\ prefix_of (pre c) (trace k)) /\ exists g0 stones kb kw, game_from s out g0 stones kb kw.

Definition broken_off (s : run_s) (p : progress) : Prop :=
  p <> Going /\ ru_moves (ga_runner (rn_game s)) = [] /\ (forall text, p = Aborted text -> reason text).

Lemma complete_step c k k' l : complete c k -> step (ch c) k k' l -> complete c k'.
Proof.
  intros [L N A Pr (d & h & rest & H & S)] St. constructor.
  - exact (sp_live _ _ _ _ St).
  - rewrite (sp_name _ _ _ _ St). exact N.
  - rewrite (sp_aliases _ _ _ _ St). exact A.
  - destruct (sp_more _ _ _ _ St) as (evs & ->). apply prefix_more. exact Pr.
  - exists d, h, (rest ++ l). split; [exact H|]. rewrite (sp_sent _ _ _ _ St), S, app_assoc. reflexivity.
Qed.

Lemma complete_do c k cmd args : complete c k -> complete c (fst (do_command (recorded (ch c)) k cmd args)).
Proof.
  intros C. destruct (do_command (recorded (ch c)) k cmd args) as [k' r] eqn:D.
  destruct (step_do (ch c) _ _ _ _ _ (cm_live _ _ C) D) as (St & _). exact (complete_step _ _ _ _ C St).
Qed.
Lemma complete_safe c k cmd args : complete c k -> complete c (fst (safe_do_command (recorded (ch c)) k cmd args)).
Proof.
  intros C. destruct (safe_do_command (recorded (ch c)) k cmd args) as [k' r] eqn:D.
  destruct (step_safe (ch c) _ _ _ _ _ (cm_live _ _ C) D) as (l & St). exact (complete_step _ _ _ _ C St).
Qed.
Lemma complete_known c k cmd : complete c k -> complete c (fst (known_command (recorded (ch c)) k cmd)).
Proof.
  intros C. destruct (known_command (recorded (ch c)) k cmd) as [k' r] eqn:D.
  destruct (step_known (ch c) _ _ _ _ (cm_live _ _ C) D) as [(b & _ & -> & _)|(_ & St & _)]; [exact C|exact (complete_step _ _ _ _ C St)].
Qed.
Lemma complete_safe_known c k cmd : complete c k -> complete c (fst (safe_known_command (recorded (ch c)) k cmd)).
Proof.
  intros C. destruct (safe_known_command (recorded (ch c)) k cmd) as [k' r] eqn:D.
  destruct (step_safe_known (ch c) _ _ _ _ (cm_live _ _ C) D) as (l & St). exact (complete_step _ _ _ _ C St).
Qed.

Lemma of_res_reason g r text : of_res_unit error_text g r = Aborted text -> reason text.
Proof.
  unfold of_res_unit. destruct r as [u|e]; [discriminate|]. destruct (is_gtp_error e) eqn:E; [|discriminate]. intros H. injection H as <-.
  apply ar_game. destruct e; try discriminate E; cbn in E; unfold bad_gtp, channel_error.
  match goal with n : nat |- _ => destruct n as [|[|[|n]]] end; try discriminate E; auto.
Qed.
Lemma of_cres_trouble c (r : cres unit) text : trouble_at c r -> of_cres r = Aborted text -> player_trouble j c text.
Proof. destruct r; cbn; intros T H; try discriminate H; injection H as <-; exact T. Qed.

Lemma prepare_moves B (r : runner) (s : gbackend (X * list cevent)) : match prepare B r s with (r', _, _) => ru_moves r' = ru_moves r end.
Proof. unfold prepare. destruct (negb _); [reflexivity|]. destruct (b_start B _ _ s) as [s1 [u|e]]; reflexivity. Qed.
Lemma handicap_moves B (r : runner) (s : gbackend (X * list cevent)) n fr : match set_handicap B r s n fr with (r', _, _) => ru_moves r' = ru_moves r end.
Proof.
  unfold set_handicap. destruct (negb _); [reflexivity|]. destruct fr.
  - destruct (negb _); [reflexivity|]. destruct (b_free B n s) as [s1 [pts|e]]; [|reflexivity].
    destruct (b_notify_free B pts s1) as [s2 [u|e]]; reflexivity.
  - destruct (handicap_points n (ru_size r)) as [pts|e]; [|reflexivity]. destruct (b_notify_fixed B Black n pts s) as [s1 [u|e]]; [|reflexivity].
    destruct (b_notify_fixed B White n pts s1) as [s2 [u2|e]]; reflexivity.
Qed.
Lemma handicap_komi B (r : runner) (s : gbackend (X * list cevent)) n fr : match set_handicap B r s n fr with (r', _, _) => ru_komi r' = ru_komi r end.
Proof.
  unfold set_handicap. destruct (negb _); [reflexivity|]. destruct fr.
  - destruct (negb _); [reflexivity|]. destruct (b_free B n s) as [s1 [pts|e]]; [|reflexivity].
    destruct (b_notify_free B pts s1) as [s2 [u|e]]; reflexivity.
  - destruct (handicap_points n (ru_size r)) as [pts|e]; [|reflexivity]. destruct (b_notify_fixed B Black n pts s) as [s1 [u|e]]; [|reflexivity].
    destruct (b_notify_fixed B White n pts s1) as [s2 [u2|e]]; reflexivity.
Qed.

(** The backend, but for the controllers, when the players [cs] have been started. *)
Record set_for (cs : list colour) (h : option Z) (b : gbackend (X * list cevent)) : Prop := mkSetFor {
  sf_size : gb_size b = gj_size j;
  sf_komi : gb_komi b = gj_komi j /\ gb_komi_text b = gj_komi_text j;
  sf_claims : forall c, claim_allowed c b = existsb (colour_eqb c) cs && gp_claims (job_player j c);
  sf_scorers : gb_scorers b = filter (may_score j) cs;
  sf_internal : gb_internal b = gj_internal j /\ (gj_internal j = true -> gb_comp b = gj_comp j);
  sf_handicap : gb_handicap b = h;
  sf_codes : g_code_b (gb_gc b) = gp_code (gj_b j) /\ g_code_w (gb_gc b) = gp_code (gj_w j);
  sf_late : g_late (gb_gc b) = [];
  sf_cautious : g_cautious (gb_gc b) = false
}.

Lemma set_for_ordered b h : set_for [Black; White] h b -> h = match gj_handicap j with Some 0 => None | h => h end -> as_ordered j b.
Proof.
  intros [A B C D E F G _ _] Eh. constructor; auto; [|congruence].
  intros c. rewrite C. destruct c; reflexivity.
Qed.

Lemma set_for_talked cs h b b' : set_for cs h b -> talked b b' -> set_for cs h b'.
Proof. intros [A B C D E F G L Q] (kb & kw & ->). constructor; auto. Qed.
Lemma set_for_put cs h b c k : set_for cs h b -> set_for cs h (with_gc (g_put c k (gb_gc b)) b).
Proof. intros [A B C D E F G L Q]. constructor; auto; destruct c; auto. Qed.

Lemma set_for_adjusted cs b c : set_for cs None b -> ~ In c cs -> set_for (cs ++ [c]) None (adjusted c b).
Proof.
  intros [A B C D E F G L Q] NI. assert (Gc := adjusted_gc c b).
  assert (N : existsb (colour_eqb c) cs = false).
  { destruct (existsb (colour_eqb c) cs) eqn:Ex; [|reflexivity]. apply existsb_exists in Ex. destruct Ex as (d & I & Ed).
    destruct (colour_eqb_spec c d); [subst; contradiction|discriminate]. }
  pose proof (C Black) as Cb. pose proof (C White) as Cw.
  constructor; rewrite ?Gc; auto; unfold adjusted; destruct (may_score j c) eqn:M, (gp_claims (job_player j c)) eqn:Cl; auto.
  all: try (rewrite filter_app; cbn [filter]; rewrite M; cbn [app]; cbn [gb_scorers allow_scorer set_claim_allowed]; rewrite ?app_nil_r, D; reflexivity).
  all: intros [|]; rewrite existsb_app; cbn [existsb]; destruct c; cbn [claim_allowed gb_claim_b gb_claim_w allow_scorer set_claim_allowed colour_eqb orb] in *;
    rewrite ?Cl, ?orb_true_r, ?orb_false_r, ?andb_true_r, ?andb_false_r; auto; try (rewrite Cb || rewrite Cw); rewrite ?Cl, ?andb_false_r, ?andb_true_r; auto.
Qed.

Lemma set_for_handicap b n : set_for [Black; White] None b -> set_for [Black; White] (Some n) (with_gb_handicap n b).
Proof. intros [A B C D E F G L Q]. constructor; auto. Qed.

(** If a player has no engine then it could not be started, or it wasn't tried. *)
Definition all_started (s : run_s) (p : progress) : Prop :=
  forall c, g_get c (rn_gc s) = None ->
    spawn_fails c \/ (c = White /\ ((exists text, p = Aborted text /\ player_trouble j Black text) \/ exists e, p = Raised e)).

Definition body_ok (s : run_s) (p : progress) : Prop :=
  quiet s /\ all_started s p /\ (forall c k, g_get c (rn_gc s) = Some k -> opened c k) /\
  (broken_off s p \/ exists out, played s out /\ p = of_res_unit error_text (rn_game s) out).

Lemma quiet_set s cs h : set_for cs h (rn_backend s) -> quiet s.
Proof. intros [A B C D E F (G1 & G2) L Q]. split; [exact L|auto]. Qed.

Lemma both_opened s lb lw hb hw : both ch j pre lb lw (rn_backend s) -> handicapping j Black hb -> handicapping j White hw ->
  prefix_of lb (gp_startup (job_player j Black) ++ setting_up j ++ hb) -> prefix_of lw (gp_startup (job_player j White) ++ setting_up j ++ hw) ->
  forall c k, g_get c (rn_gc s) = Some k -> opened c k.
Proof.
  intros (kb & kw & Gb & Gw & Sb & Sw) Hb Hw Pb Pw c k G. left. destruct c.
  - assert (k = kb) as -> by (unfold rn_gc in G; congruence). exact (said_partly ch j pre _ _ _ _ Sb Hb Pb).
  - assert (k = kw) as -> by (unfold rn_gc in G; congruence). exact (said_partly ch j pre _ _ _ _ Sw Hw Pw).
Qed.

Lemma both_started s lb lw p : both ch j pre lb lw (rn_backend s) -> all_started s p.
Proof. intros (kb & kw & Gb & Gw & _) c G. exfalso. unfold rn_gc in G. destruct c; congruence. Qed.

Lemma resetting_j b cs h : set_for cs h b -> resetting b = setting_up j.
Proof. intros [A (B1 & B2) _ _ _ _ _ _ _]. unfold resetting, setting_up. rewrite A, B2. reflexivity. Qed.

Lemma on_game_eq f (s s' : run_s) r : on_game f s = (s', r) ->
  exists r1 b1, f (ga_runner (rn_game s)) (rn_backend s) = (r1, b1, r) /\
    s' = mkRunning (mkGame r1 b1 (ga_id (rn_game s)) (ga_result (rn_game s)) (ga_cpu_errors (rn_game s))) (rn_b s) (rn_w s).
Proof.
  unfold on_game, rn_backend. destruct (f _ _) as [[r1 b1] x]. intros H. injection H as <- <-. eauto.
Qed.

Lemma play_ok s stones p kb kw : 
  ready (ga_runner (rn_game s)) (gj_size j) (Some (gj_limit j)) stones -> ru_komi (ga_runner (rn_game s)) = gj_komi j ->
  set_for [Black; White] (match gj_handicap j with Some 0 => None | h => h end) (rn_backend s) ->
  ga_id (rn_game s) = Some (gj_id j) -> ga_result (rn_game s) = None ->
  g_get Black (rn_gc s) = Some kb -> g_get White (rn_gc s) = Some kw -> stones_from j kb kw stones ->
  (exists lb lw hb hw, both ch j pre lb lw (rn_backend s) /\ handicapping j Black hb /\ handicapping j White hw /\
     lb = gp_startup (job_player j Black) ++ setting_up j ++ hb /\ lw = gp_startup (job_player j White) ++ setting_up j ++ hw) ->
  (forall c, found (pre c) c s) ->
  forall s', job_play chr sanitise pick error_text j s = (s', p) -> body_ok s' p.
Proof.
  intros Rd Ko SF Id Re Gb Gw St (lb & lw & hb & hw & Bo & Hb & Hw & El & Ew) Fd s' H.
  unfold job_play in H. fold fuel in H.
  destruct (run_gtp_game chr sanitise pick None fuel (rn_game s)) as [g1 r] eqn:Run. injection H as <- <-.
  assert (Cm : forall c k, g_get c (rn_gc s) = Some k -> complete c k /\ exists d h, handicapping j c h /\ sent (trace k) = opening j c d h).
  { intros c k G. destruct Bo as (kb' & kw' & Gb' & Gw' & Sb & Sw). destruct c.
    - assert (k = kb') as -> by (unfold rn_gc in G; congruence). destruct Sb as [L N A Pr (d & S)]. rewrite El in S.
      split; [|exists d, hb; auto]. constructor; auto. exists d, hb, []. rewrite app_nil_r. auto.
    - assert (k = kw') as -> by (unfold rn_gc in G; congruence). destruct Sw as [L N A Pr (d & S)]. rewrite Ew in S.
      split; [|exists d, hw; auto]. constructor; auto. exists d, hw, []. rewrite app_nil_r. auto. }
  assert (K0 : settled complete (rn_backend s) (ga_backend (rn_game s))).
  { constructor; try (split; reflexivity); try reflexivity; [|split; [reflexivity|split; reflexivity]].
    constructor; [|intros c; reflexivity|split; reflexivity|reflexivity]. intros c k G. exact (proj1 (Cm c k G)). }
  destruct (run_gtp_kept chr sanitise complete complete_do complete_safe complete_known complete_safe_known pick fuel (rn_game s) g1 r (rn_backend s) K0) as (K1 & Id1);
    [apply Rd|exact Run|].
  assert (Q : quiet s) by (eapply quiet_set; exact SF). destruct Q as (Q1 & Q2 & Q3).
  destruct (st_kept _ _ _ K1) as [Kh Kt (Kc1 & Kc2) Kl].
  split; [|split; [|split]].
  - split; [|split]; unfold rn_gc, rn_backend in *; cbn [rn_game]; congruence.
  - intros c G. exfalso. apply Kt in G. unfold rn_gc in Gb, Gw. destruct c; congruence.
  - intros c k G. right. apply Kh. exact G.
  - right. exists r. split; [|reflexivity]. split; [exact Fd|]. split.
    { intros c. destruct (g_get c (gb_gc (ga_backend g1))) as [k|] eqn:G.
      - exists k. split; [exact G|]. exact (cm_pre _ _ (Kh c k G)).
      - exfalso. apply Kt in G. unfold rn_gc in Gb, Gw. destruct c; congruence. }
    exists (rn_game s), stones, kb, kw.
    split; [exact Rd|]. split; [exact Ko|]. split.
    { split; [apply SF|]. intros c. destruct Bo as (kb' & kw' & Gb' & Gw' & Sb & Sw). destruct c.
      - exists kb'. split; [exact Gb'|]. destruct (sd_live _ _ _ _ _ _ Sb) as (R & Cl & _). auto.
      - exists kw'. split; [exact Gw'|]. destruct (sd_live _ _ _ _ _ _ Sw) as (R & Cl & _). auto. }
    split; [eapply set_for_ordered; [exact SF|reflexivity]|]. split; [exact Id|]. split; [exact Re|]. split; [exact Gb|]. split; [exact Gw|].
    split; [exact St|]. split; [|exact Run]. intros c k G. exact (proj2 (Cm c k G)).
Qed.

End After.

Notation body := (job_body chr sanitise pick os_environ (watched spawn) error_text j worker).
Lemma body_proof gc0 s p : new_gctl (gp_code (gj_b j)) (gp_code (gj_w j)) = Ok gc0 -> body (job_game j gc0) = (s, p) -> exists pre, body_ok pre s p.
Proof.
  unfold new_gctl. destruct (bytes_eqb _ _); [discriminate|]. intros E0. injection E0 as <-.
  set (s0 := job_game j (mkGC None None (gp_code (gj_b j)) (gp_code (gj_w j)) false [])).
  assert (SF0 : set_for [] None (rn_backend s0)).
  { constructor; try reflexivity; try (split; reflexivity).
    - intros [|]; reflexivity.
    - split; [reflexivity|]. cbn. intros ->. reflexivity. }
  unfold job_body, cgo. intros H.
  (* Black *)
  destruct (start Black s0) as [s1 r1] eqn:S1. cbn [fst snd] in H.
  destruct (start_player_proof Black s0 s1 r1 eq_refl eq_refl S1) as (Sb1 & Eb1 & T1 & g1 & B1 & Cs1).
  pose proof (set_for_adjusted [] (rn_backend s0) Black SF0 (fun x => x)) as SA1. cbn [app] in SA1.
  assert (M1 : ru_moves (ga_runner (rn_game s1)) = []) by (rewrite (sb_runner _ _ Sb1); reflexivity).
  assert (SF1 : set_for [Black] None (rn_backend s1)).
  { rewrite B1. destruct Cs1 as [(-> & _)|(k & -> & _)].
    - change (rn_gc s0) with (gb_gc (rn_backend s0)). rewrite <- (adjusted_gc Black (rn_backend s0)).
      destruct SA1 as [A B C D E F G L Q]. constructor; auto.
    - change (rn_gc s0) with (gb_gc (rn_backend s0)). rewrite <- (adjusted_gc Black (rn_backend s0)). apply set_for_put. exact SA1. }
  assert (G1 : rn_gc s1 = g1) by (unfold rn_gc; rewrite B1; reflexivity).
  assert (Op1 : forall c k, g_get c (rn_gc s1) = Some k -> partly ch j c k).
  { intros c k G. rewrite G1 in G. destruct Cs1 as [(-> & _)|(k1 & -> & P1 & _)]; [destruct c; discriminate G|].
    destruct c; [|discriminate G]. injection G as <-. exact P1. }
  assert (St1 : forall c, g_get c (rn_gc s1) = None -> spawn_fails c \/ c = White).
  { intros c G. rewrite G1 in G. destruct c; [|right; reflexivity]. left. destruct Cs1 as [(_ & Sp & _)|(k1 & -> & _)]; [exact Sp|discriminate G]. }
  destruct (of_cres r1) as [|text|e] eqn:O1; cbn [go_on] in H.
  2-3: injection H as <- <-; exists (fun _ => []); split; [eapply quiet_set; exact SF1|]; (split; [intros c G; destruct (St1 c G) as [?| ->]; [left; assumption|right; split; [reflexivity|eauto using of_cres_trouble]]|]); split; [intros c k G; left; exact (Op1 c k G)|]; left; split; [discriminate|]; split; [exact M1|];
       intros text' Q; try discriminate Q; injection Q as <-; eapply ar_player, of_cres_trouble; eauto.
  destruct r1 as [u1|m x|kd m|e]; try discriminate O1. clear O1.
  destruct Cs1 as [(_ & _ & kd & m & Q)|(kb & Eg1 & Pb & Cs1)]; [discriminate Q|]. destruct (Cs1 u1 eq_refl) as (tb & Sdb & Fb1). clear Cs1. subst g1.
  (* White *)
  destruct (start White s1) as [s2 r2] eqn:S2. cbn [fst snd] in H.
  assert (Code2 : g_code White (rn_gc s1) = gp_code (job_player j White)) by (apply SF1).
  destruct (start_player_proof White s1 s2 r2 Code2 (sf_cautious _ _ _ SF1) S2) as (Sb2 & Eb2 & T2 & g2 & B2 & Cs2).
  assert (NW : ~ In White [Black]) by (intros [Q|[]]; discriminate Q).
  pose proof (set_for_adjusted [Black] (rn_backend s1) White SF1 NW) as SA2. cbn [app] in SA2.
  assert (M2 : ru_moves (ga_runner (rn_game s2)) = []) by (rewrite (sb_runner _ _ Sb2); exact M1).
  assert (SF2 : set_for [Black; White] None (rn_backend s2)).
  { rewrite B2. destruct Cs2 as [(-> & _)|(k & -> & _)].
    - change (rn_gc s1) with (gb_gc (rn_backend s1)). rewrite <- (adjusted_gc White (rn_backend s1)).
      destruct SA2 as [A B C D E F G L Q]. constructor; auto.
    - change (rn_gc s1) with (gb_gc (rn_backend s1)). rewrite <- (adjusted_gc White (rn_backend s1)). apply set_for_put. exact SA2. }
  assert (G2 : rn_gc s2 = g2) by (unfold rn_gc; rewrite B2; reflexivity).
  assert (Op2 : forall c k, g_get c (rn_gc s2) = Some k -> partly ch j c k).
  { intros c k G. rewrite G2 in G. destruct Cs2 as [(-> & _)|(k2 & -> & P2 & _)]; [exact (Op1 c k G)|].
    destruct c; [apply (Op1 Black k); exact G|]. injection G as <-. exact P2. }
  assert (St2 : forall c, g_get c (rn_gc s2) = None -> spawn_fails c).
  { intros c G. rewrite G2 in G. destruct c.
    - exfalso. destruct Cs2 as [(-> & _)|(k2 & -> & _)]; [rewrite G1 in G|cbn [g_get g_b g_put] in G; rewrite G1 in G]; discriminate G.
    - destruct Cs2 as [(_ & Sp & _)|(k2 & -> & _)]; [exact Sp|discriminate G]. }
  destruct (of_cres r2) as [|text|e] eqn:O2; cbn [go_on] in H.
  2-3: injection H as <- <-; exists (fun _ => []); split; [eapply quiet_set; exact SF2|]; (split; [intros c G; left; exact (St2 c G)|]); split; [intros c k G; left; exact (Op2 c k G)|]; left; split; [discriminate|]; split; [exact M2|];
       intros text' Q; try discriminate Q; injection Q as <-; eapply ar_player, of_cres_trouble; eauto.
  destruct r2 as [u2|m x|kd m|e]; try discriminate O2. clear O2.
  destruct Cs2 as [(_ & _ & kd & m & Q)|(kw & Eg2 & Pw & Cs2)]; [discriminate Q|]. destruct (Cs2 u2 eq_refl) as (tw & Sdw & Fw2). clear Cs2. subst g2.
  set (pre := fun c => match c with Black => tb | White => tw end). exists pre.
  assert (Fd2 : forall c, found (pre c) c s2).
  { intros [|]; [|exact Fw2]. destruct Fb1 as (e & E & En). exists e. split; [|exact En]. rewrite Eb2 by discriminate. exact E. }
  assert (Bo2 : both ch j pre (gp_startup (job_player j Black)) (gp_startup (job_player j White)) (rn_backend s2)).
  { exists kb, kw. change (gb_gc (rn_backend s2)) with (rn_gc s2). rewrite G2, G1. split; [reflexivity|]. split; [reflexivity|]. split; [apply Sdb; reflexivity|apply Sdw; reflexivity]. }
  assert (Ru2 : ga_runner (rn_game s2) = new_runner (gj_size j) (gj_komi j) (Some (gj_limit j))).
  { rewrite (sb_runner _ _ Sb2), (sb_runner _ _ Sb1). reflexivity. }
  assert (Id2 : ga_id (rn_game s2) = Some (gj_id j)) by (rewrite (sb_id _ _ Sb2), (sb_id _ _ Sb1); reflexivity).
  assert (Re2 : ga_result (rn_game s2) = None) by (rewrite (sb_result _ _ Sb2), (sb_result _ _ Sb1); reflexivity).
  clear S1 S2 Sb1 Sb2 Eb1 Eb2 T1 T2 B1 B2 SA1 SA2 SF1 G1 Op1 Fb1 M1 Op2 Sdb Sdw Pb Pw G2 NW Code2 SF0.
  destruct (some_handicapping j Black) as (hb & Hb). destruct (some_handicapping j White) as (hw & Hw).
  (* prepare *)
  unfold job_prepare, the_backend in H.
  destruct (on_game (prepare (gtp_backend chr sanitise pick None)) s2) as [s3 r3] eqn:S3.
  destruct (on_game_eq _ _ _ _ S3) as (rn3 & b3 & P3 & ->). clear S3.
  pose proof (prepare_moves (gtp_backend chr sanitise pick None) (ga_runner (rn_game s2)) (rn_backend s2)) as M3. rewrite P3 in M3.
  rewrite Ru2 in P3, M3. cbn [ru_moves new_runner] in M3.
  set (s3 := mkRunning (mkGame rn3 b3 (ga_id (rn_game s2)) (ga_result (rn_game s2)) (ga_cpu_errors (rn_game s2))) (rn_b s2) (rn_w s2)) in *.
  assert (P3b : exists b3r, start_new_game chr (gj_size j) (gj_komi j) (rn_backend s2) = (b3, b3r) /\ (r3 = Ok tt -> b3r = Ok tt)).
  { unfold prepare in P3. cbn [ru_state new_runner Z.eqb negb ru_size ru_komi gtp_backend b_start] in P3.
    destruct (start_new_game chr (gj_size j) (gj_komi j) (rn_backend s2)) as [b3' x]. destruct x as [[]|e]; injection P3 as <- <- <-; eexists; (split; [reflexivity|]); auto; discriminate. }
  destruct P3b as (b3r & SN & Ok3).
  destruct (new_game_said ch j pre _ _ _ _ _ _ _ Bo2 (sf_cautious _ _ _ SF2) SN) as (mb & mw & Tk3 & Bo3 & Pm & Pw & Full3).
  rewrite (resetting_j _ _ _ SF2) in Pm, Pw, Full3.
  assert (SF3 : set_for [Black; White] None (rn_backend s3)) by exact (set_for_talked _ _ _ _ SF2 Tk3).
  destruct (of_res_unit error_text (rn_game s3) r3) as [|text|e] eqn:O3; cbn [go_on] in H.
  2-3: injection H as <- <-; split; [eapply quiet_set; exact SF3|]; (split; [eapply both_started; exact Bo3|]); (split; [eapply (both_opened pre); [exact Bo3|exact Hb|exact Hw|apply prefix_app, prefix_more; exact Pm|apply prefix_app, prefix_more; exact Pw]|]);
       left; split; [discriminate|]; split; [exact M3|]; intros text' Q; try discriminate Q; injection Q as <-; eapply of_res_reason; eauto.
  assert (r3 = Ok tt) as ->.
  { destruct r3 as [[]|e]; [reflexivity|]. unfold of_res_unit in O3. destruct (is_gtp_error e); discriminate O3. }
  destruct (Full3 (Ok3 eq_refl)) as [-> ->].
  destruct (C32_prepare _ _ _ _ _ _ _ _ P3) as (Ern3 & _ & Rd3).
  assert (Ko3 : ru_komi (ga_runner (rn_game s3)) = gj_komi j) by (cbn [rn_game ga_runner s3]; rewrite Ern3; reflexivity).
  (* handicap *)
  unfold job_handicap, the_backend in H.
  assert (NoH : (gj_handicap j = None \/ gj_handicap j = Some 0) -> job_play chr sanitise pick error_text j s3 = (s, p) -> body_ok pre s p).
  { intros Hn Pl. assert (HN : forall c l, handicapping j c l <-> l = []) by (intros c l; unfold handicapping; destruct Hn as [->| ->]; apply iff_refl).
    destruct Bo3 as (kb' & kw' & Gb & Gw & Sb & Sw).
    apply (play_ok pre s3 None p kb' kw'); auto.
    - destruct Hn as [->| ->]; exact SF3.
    - unfold stones_from. destruct Hn as [->| ->]; reflexivity.
    - exists (gp_startup (job_player j Black) ++ setting_up j), (gp_startup (job_player j White) ++ setting_up j), [], [].
      split; [exists kb', kw'; auto|]. split; [apply HN; reflexivity|]. split; [apply HN; reflexivity|]. rewrite !app_nil_r. auto. }
  destruct (gj_handicap j) as [n|] eqn:Hn; [|cbn [go_on] in H; apply NoH; [left; reflexivity|exact H]].
  destruct (Z.eq_dec n 0) as [->|N0]; [cbn [go_on] in H; apply NoH; [right; reflexivity|exact H]|]. clear NoH.
  assert (H' : go_on (match on_game (fun r b => set_handicap (gtp_backend chr sanitise pick None) r (with_gb_handicap n b) n (gj_free j)) s3 with
                | (s1, Err ValueError) => (s1, Aborted (str "invalid handicap"))
                | (s1, r) => (s1, of_res_unit error_text (rn_game s1) r) end) (job_play chr sanitise pick error_text j) = (s, p))
    by (destruct n; [congruence|exact H|exact H]). clear H. rename H' into H.
  destruct (on_game _ s3) as [s4 r4] eqn:S4. destruct (on_game_eq _ _ _ _ S4) as (rn4 & b4 & P4 & ->). clear S4.
  set (b3h := with_gb_handicap n (rn_backend s3)) in *.
  assert (SF3h : set_for [Black; White] (Some n) b3h) by (apply set_for_handicap; exact SF3).
  assert (Bo3h : both ch j pre (gp_startup (job_player j Black) ++ setting_up j) (gp_startup (job_player j White) ++ setting_up j) b3h) by exact Bo3.
  pose proof (handicap_moves (gtp_backend chr sanitise pick None) (ga_runner (rn_game s3)) b3h n (gj_free j)) as M4. rewrite P4 in M4.
  pose proof (handicap_komi (gtp_backend chr sanitise pick None) (ga_runner (rn_game s3)) b3h n (gj_free j)) as K4. rewrite P4 in K4.
  change (ru_moves (ga_runner (rn_game s3))) with (ru_moves rn3) in M4. rewrite M3 in M4.
  change (ga_id (rn_game s3)) with (ga_id (rn_game s2)) in H. change (ga_result (rn_game s3)) with (ga_result (rn_game s2)) in H.
  set (s4 := mkRunning (mkGame rn4 b4 (ga_id (rn_game s2)) (ga_result (rn_game s2)) (ga_cpu_errors (rn_game s3))) (rn_b s3) (rn_w s3)) in *.
  destruct (handicap_said ch j pre sanitise pick _ _ n _ _ _ _ _ Hn N0 Bo3h (sf_cautious _ _ _ SF3h) P4) as (mb4 & mw4 & hb4 & hw4 & Tk4 & Bo4 & Hb4 & Hw4 & Pb4 & Pw4 & Full4).
  assert (SF4 : set_for [Black; White] (Some n) (rn_backend s4)) by exact (set_for_talked _ _ _ _ SF3h Tk4).
  rewrite <- !app_assoc in Bo4.
  assert (Op4 : forall c k, g_get c (rn_gc s4) = Some k -> opened pre c k).
  { eapply (both_opened pre s4); [exact Bo4|exact Hb4|exact Hw4| |]; apply prefix_app, prefix_app; assumption. }
  assert (Broke : forall p', p' <> Going -> (forall text, p' = Aborted text -> reason text) -> body_ok pre s4 p').
  { intros p' NG Rs. split; [eapply quiet_set; exact SF4|]. split; [eapply both_started; exact Bo4|]. split; [exact Op4|]. left. split; [exact NG|]. split; [exact M4|exact Rs]. }
  assert (Cases : r4 = Err ValueError \/ go_on (s4, of_res_unit error_text (rn_game s4) r4) (job_play chr sanitise pick error_text j) = (s, p)).
  { destruct r4 as [u|[]]; try (right; exact H). left. reflexivity. }
  destruct Cases as [->|H4].
  { cbn [go_on] in H. injection H as <- <-. apply Broke; [discriminate|]. intros text Q. injection Q as <-. apply ar_handicap. }
  clear H.
  destruct (of_res_unit error_text (rn_game s4) r4) as [|text|e] eqn:O4; cbn [go_on] in H4.
  2-3: injection H4 as <- <-; apply Broke; [discriminate|]; intros text' Q; try discriminate Q; injection Q as <-; eapply of_res_reason; eauto.
  assert (r4 = Ok tt) as ->.
  { destruct r4 as [[]|e]; [reflexivity|]. unfold of_res_unit in O4. destruct (is_gtp_error e); discriminate O4. }
  destruct (Full4 eq_refl) as [-> ->].
  destruct Bo3h as (kb3 & kw3 & Gb3 & Gw3 & Sb3 & Sw3).
  destruct (stones_proof ch j sanitise pick _ _ n _ _ kb3 kw3 (Some (gj_limit j)) Hn N0 Gb3 Gw3 (sd_live _ _ _ _ _ _ Sb3) (sd_live _ _ _ _ _ _ Sw3)
     (sf_cautious _ _ _ SF3h) (sf_size _ _ _ SF3h) Rd3 P4) as (stones & kb4 & kw4 & Gb4 & Gw4 & St4 & Rd4).
  apply (play_ok pre s4 stones p kb4 kw4); auto.
  - cbn [s4 rn_game ga_runner]. rewrite K4. exact Ko3.
  - rewrite Hn. destruct n; [congruence|exact SF4|exact SF4].
  - exists (gp_startup (job_player j Black) ++ setting_up j ++ hb4), (gp_startup (job_player j White) ++ setting_up j ++ hw4), hb4, hw4. auto.
Qed.
End Body.
