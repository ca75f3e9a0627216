(** What is said to the engines of a game job before the game, and how they are closed (C62). *)
From Verif Require Import Base Bytes PyStr Dict BoardModel CommonModel GameplayModel ControllerModel ControllerSpec ControllerProofs
  GtpGameModel EngineModel EngineSpec EngineDialogueProofs JobSgfModel JobRunModel JobRunSpec JobKeptProofs JobLiveProofs.

Lemma prefix_refl {A} (l : list A) : prefix_of l l.
Proof. exists []. symmetry. apply app_nil_r. Qed.
Lemma prefix_app {A} (a b c : list A) : prefix_of b c -> prefix_of (a ++ b) (a ++ c).
Proof. intros (r & ->). exists r. rewrite app_assoc. reflexivity. Qed.
Lemma prefix_more {A} (a b c : list A) : prefix_of a b -> prefix_of a (b ++ c).
Proof. intros (r & ->). exists (r ++ c). rewrite app_assoc. reflexivity. Qed.
Lemma prefix_map {A B} (f : A -> B) a b : prefix_of a b -> prefix_of (map f a) (map f b).
Proof. intros (r & ->). exists (map f r). apply map_app. Qed.
Lemma prefix_nil {A} (l : list A) : prefix_of [] l.
Proof. exists l. reflexivity. Qed.

(** Closing one engine. *)
Lemma closing {X} (ch : channel X) k k' r : live ch k -> safe_close (recorded ch) k = (k', r) ->
  reached ch k' /\ c_name k' = c_name k /\ c_aliases k' = c_aliases k /\
  (exists q, sent (trace k') = sent (trace k) ++ q /\ (q = [] \/ q = [(meaning (c_aliases k) (str "quit"), [])])) /\
  (forall u, r = CRet u -> c_closed k' = true /\ closed_once (trace k')).
Proof.
  intros (R & Cl & NC) S. assert (reached ch k') as R'.
  { eapply (reached_step ch k Safe_close); [exact R|]. cbn [perform]. rewrite S. reflexivity. }
  destruct (effect_safe_close ch k k' r S) as (evs & Ef & _ & _).
  split; [exact R'|]. split; [exact (ef_name _ _ _ _ Ef)|]. split; [exact (ef_aliases _ _ _ _ Ef)|].
  assert (Tr : exists q x, trace k' = trace k ++ q ++ x /\ sent x = [] /\ (sent q = [] \/ sent q = [(meaning (c_aliases k) (str "quit"), [])]) /\
             (forall u, r = CRet u -> c_closed k' = true)).
  { unfold safe_close in S. rewrite Cl in S.
    assert (Chan : forall k1, c_closed k1 = false -> safe_close_channel (recorded ch) k1 = (k', r) -> exists e, trace k' = trace k1 ++ [EvClose e] /\
                     (forall u, r = CRet u -> c_closed k' = true)).
    { intros k1 C1 S1. unfold safe_close_channel in S1. unfold trace in *. cbn [ch_close recorded] in S1.
      destruct (ch_close ch (fst (c_chan k1))) as [x1 e]. destruct e as [[[] text|e]|]; injection S1 as <- <-; eexists; (split; [reflexivity|]);
        intros u Q; try discriminate Q; reflexivity. }
    destruct (c_bad k) eqn:B.
    - destruct (Chan k Cl S) as (e & T & C). exists [], [EvClose e]. rewrite T. auto.
    - destruct (safe_do_command (recorded ch) k (str "quit") []) as [k1 r1] eqn:D.
      destruct (safe_do_open ch k k1 _ _ r1 Cl B D) as (evs1 & T & Ex & O & N & K & A & Cl1 & _).
      destruct r1 as [t|m g|kd m|e].
      + destruct (Chan k1 Cl1 S) as (e & T1 & C). exists evs1, [EvClose e]. rewrite T1, T, <- app_assoc. split; [reflexivity|]. split; [reflexivity|].
        split; [right; exact (exchange_sent _ _ _ Ex)|exact C].
      + destruct (Chan (add_error m k1) Cl1 S) as (e & T1 & C). exists evs1, [EvClose e]. rewrite T1. change (trace (add_error m k1)) with (trace k1).
        rewrite T, <- app_assoc. split; [reflexivity|]. split; [reflexivity|]. split; [right; exact (exchange_sent _ _ _ Ex)|exact C].
      + injection S as <- <-. exists evs1, []. rewrite app_nil_r. split; [exact T|]. split; [reflexivity|].
        split; [right; exact (exchange_sent _ _ _ Ex)|discriminate].
      + injection S as <- <-. exists evs1, []. rewrite app_nil_r. split; [exact T|]. split; [reflexivity|].
        split; [right; exact (exchange_sent _ _ _ Ex)|discriminate]. }
  destruct Tr as (q & x & T & Sx & Sq & C). split.
  - exists (sent q). split; [|exact Sq]. rewrite T, !sent_app, Sx, app_nil_r. reflexivity.
  - intros u Q. pose proof (C u Q) as C'. split; [exact C'|]. destruct (ef_closing _ _ _ _ Ef Cl C') as (e0 & y & -> & E0).
    exists (trace k ++ e0), y. rewrite (ef_trace _ _ _ _ Ef), app_assoc. split; [reflexivity|]. rewrite existsb_app, NC. exact E0.
Qed.

Section Talk.
Context {X : Type} (ch : colour -> channel X).
Variable j : game_job.
(** How the conversations began. *)
Variable pre : colour -> list cevent.
Notation ctl := (controller (X * list cevent)).
Notation gc := (gctl (X * list cevent)).
Notation chr := (fun c => recorded (ch c)).

Definition about (c : colour) (msg : bytes) : Prop := exists text, message_about (player_called (gp_code (job_player j c))) msg text.

(** The engine of [c] has been greeted, and then told [l]. *)
Record said (c : colour) (k : ctl) (l : list command) : Prop := mkSaid {
  sd_live : live (ch c) k;
  sd_name : c_name k = player_called (gp_code (job_player j c));
  sd_aliases : c_aliases k = gp_aliases (job_player j c);
  sd_pre : prefix_of (pre c) (trace k);
  sd_sent : exists d, sent (trace k) = greeting d ++ map (aliased (gp_aliases (job_player j c))) l
}.

Definition wrong_message {A} (c : colour) (r : cres A) : Prop :=
  match r with CBad m _ | CChan _ m => about c m | _ => True end.

Lemma send_said g c k l cmd args g' r : g_cautious g = false -> g_get c g = Some k -> said c k l ->
  send_command chr g c cmd args = (g', r) ->
  exists k', g' = g_put c k' g /\ said c k' (l ++ [(cmd, args)]) /\ wrong_message c r.
Proof.
  intros C G [L N A Pr (d & S)] H. unfold send_command in H. rewrite C in H. unfold on_player in H. rewrite G in H.
  destruct (do_command (recorded (ch c)) k cmd args) as [k' r'] eqn:D. injection H as <- <-.
  destruct (step_do (ch c) _ _ _ _ _ L D) as (St & _ & evs & Tr & O & Ex). pose proof (wrong_about _ _ _ _ _ Ex O) as W.
  exists k'. split; [reflexivity|]. split.
  - constructor.
    + exact (sp_live _ _ _ _ St).
    + rewrite (sp_name _ _ _ _ St). exact N.
    + rewrite (sp_aliases _ _ _ _ St). exact A.
    + rewrite Tr. apply prefix_more. exact Pr.
    + exists d. rewrite (sp_sent _ _ _ _ St), S, A, map_app, app_assoc. reflexivity.
  - rewrite N in W. exact W.
Qed.

Lemma put_again c k k' (g : gc) : g_put c k' (g_put c k g) = g_put c k' g.
Proof. destruct c; reflexivity. Qed.
Lemma put_it c k (g : gc) : g_get c g = Some k -> g = g_put c k g.
Proof. destruct g, c; cbn; intros ->; reflexivity. Qed.
Lemma get_it c k (g : gc) : g_get c (g_put c k g) = Some k.
Proof. destruct c; reflexivity. Qed.
Lemma get_other c d k (g : gc) : c <> d -> g_get c (g_put d k g) = g_get c g.
Proof. destruct c, d; try reflexivity; congruence. Qed.
Lemma cautious_put c k (g : gc) : g_cautious (g_put c k g) = g_cautious g.
Proof. destruct c; reflexivity. Qed.

(** Several commands: [m] is what was said of [l]. *)
Lemma send_all_said l : forall g c k l0 g' r, g_cautious g = false -> g_get c g = Some k -> said c k l0 ->
  send_all chr g c l = (g', r) ->
  exists k' m, g' = g_put c k' g /\ said c k' (l0 ++ m) /\ prefix_of m l /\ wrong_message c r /\ (forall u, r = CRet u -> m = l).
Proof.
  induction l as [|[cmd args] l IH]; intros g c k l0 g' r C G Sd H.
  - injection H as <- <-. exists k, []. rewrite app_nil_r. split; [apply put_it; exact G|]. split; [exact Sd|].
    split; [apply prefix_refl|]. split; [exact I|reflexivity].
  - cbn [send_all] in H. destruct (send_command chr g c cmd args) as [g1 r1] eqn:S1.
    destruct (send_said _ _ _ _ _ _ _ _ C G Sd S1) as (k1 & -> & Sd1 & W1).
    assert (Stop : r1 = r1 -> forall r', wrong_message c r' -> (forall u, r' <> CRet u) ->
       exists k' m, g_put c k1 g = g_put c k' g /\ said c k' (l0 ++ m) /\ prefix_of m ((cmd, args) :: l) /\ wrong_message c r' /\
         (forall u : unit, r' = CRet u -> m = (cmd, args) :: l)).
    { intros _ r' W NR. exists k1, [(cmd, args)]. split; [reflexivity|]. split; [exact Sd1|]. split; [exists l; reflexivity|].
      split; [exact W|]. intros u Q. elim (NR u Q). }
    destruct r1 as [t|m x|kd m|e].
    + assert (g_cautious (g_put c k1 g) = false) as C1 by (rewrite cautious_put; exact C).
      destruct (IH _ c k1 (l0 ++ [(cmd, args)]) g' r C1 (get_it c k1 g) Sd1 H) as (k2 & m & -> & Sd2 & P2 & W2 & E2).
      exists k2, ((cmd, args) :: m). rewrite put_again. split; [reflexivity|]. rewrite <- app_assoc in Sd2. split; [exact Sd2|].
      split; [destruct P2 as (rest & ->); exists rest; reflexivity|]. split; [exact W2|]. intros u Q. rewrite (E2 u Q). reflexivity.
    + injection H as <- <-. apply Stop; [reflexivity|exact W1|discriminate].
    + injection H as <- <-. apply Stop; [reflexivity|exact W1|discriminate].
    + injection H as <- <-. apply Stop; [reflexivity|exact I|discriminate].
Qed.

(** Part of what is to be said to an engine before the game has been said to it. *)
Record partly (c : colour) (k : ctl) : Prop := mkPartly {
  pt_live : live (ch c) k;
  pt_name : c_name k = player_called (gp_code (job_player j c));
  pt_aliases : c_aliases k = [] \/ c_aliases k = gp_aliases (job_player j c);
  pt_sent : exists d h, handicapping j c h /\ prefix_of (sent (trace k)) (opening j c d h)
}.

Lemma some_handicapping c : exists h, handicapping j c h.
Proof.
  unfold handicapping. destruct (gj_handicap j) as [[|p|p]|]; [eauto| | |eauto]; destruct (gj_free j); eauto;
    (destruct c; [eauto|exists [(str "set_free_handicap", [])]; exists []; reflexivity]).
Qed.

Lemma said_partly c k l h : said c k l -> handicapping j c h ->
  prefix_of l (gp_startup (job_player j c) ++ setting_up j ++ h) -> partly c k.
Proof.
  intros [L N A _ (d & S)] H P. constructor; auto. exists d, h. split; [exact H|]. rewrite S. apply prefix_app, prefix_map, P.
Qed.

(** The board size, an empty board and the komi. *)
Definition resetting (b : gbackend (X * list cevent)) : list command :=
  [(str "boardsize", [str_int (gb_size b)]); (str "clear_board", []); (str "komi", [gb_komi_text b])].

Lemma reset_said b c k l b' r : g_cautious (gb_gc b) = false -> g_get c (gb_gc b) = Some k -> said c k l ->
  start_player chr b c = (b', r) ->
  exists k' m, b' = with_gc (g_put c k' (gb_gc b)) b /\ said c k' (l ++ m) /\ prefix_of m (resetting b) /\
    (r = Ok tt -> m = resetting b).
Proof.
  intros C G Sd H. unfold start_player in H.
  destruct (send_command chr (gb_gc b) c (str "boardsize") [str_int (gb_size b)]) as [g1 r1] eqn:S1.
  destruct (send_said _ _ _ _ _ _ _ _ C G Sd S1) as (k1 & -> & Sd1 & W1).
  assert (C1 : forall k, g_cautious (g_put c k (gb_gc b)) = false) by (intros; rewrite cautious_put; exact C).
  destruct (send_command chr (g_put c k1 (gb_gc b)) c (str "clear_board") []) as [g2 r2] eqn:S2.
  destruct (send_said _ _ _ _ _ _ _ _ (C1 k1) (get_it c k1 (gb_gc b)) Sd1 S2) as (k2 & E2 & Sd2 & W2). rewrite put_again in E2. subst g2.
  destruct (send_command chr (g_put c k2 (gb_gc b)) c (str "komi") [gb_komi_text b]) as [g3 r3] eqn:S3.
  destruct (send_said _ _ _ _ _ _ _ _ (C1 k2) (get_it c k2 (gb_gc b)) Sd2 S3) as (k3 & E3 & Sd3 & W3). rewrite put_again in E3. subst g3.
  rewrite <- app_assoc in Sd2. rewrite <- !app_assoc in Sd3. cbn [app] in Sd2, Sd3.
  assert (Bad : forall A (x : cres A), (forall a, x <> CRet a) -> (bind (to_res x) (fun _ => Ok tt)) <> Ok tt).
  { intros A [a|? ?|? ?|?] NR; cbn; try discriminate. elim (NR a eq_refl). }
  destruct r1 as [t1|m x|kd m|e].
  2-4: injection H as <- <-; exists k1; eexists; split; [reflexivity|]; split; [exact Sd1|]; split; [eexists; reflexivity|]; discriminate.

  destruct r2 as [t2|m x|kd m|e].
  2-4: injection H as <- <-; exists k2; eexists; split; [reflexivity|]; split; [exact Sd2|]; split; [eexists; reflexivity|]; discriminate.
  destruct r3 as [t3|m x|kd m|e].
  1-4: injection H as <- <-; exists k3; eexists; split; [reflexivity|]; split; [exact Sd3|]; split; [apply prefix_refl|]; auto.
Qed.

(** Both players' engines. *)
Definition both (lb lw : list command) (b : gbackend (X * list cevent)) : Prop :=
  exists kb kw, g_get Black (gb_gc b) = Some kb /\ g_get White (gb_gc b) = Some kw /\ said Black kb lb /\ said White kw lw.

(** The state [b'] comes from [b] by talking to the players. *)
Definition talked (b b' : gbackend (X * list cevent)) : Prop :=
  exists kb kw, b' = with_gc (g_put White kw (g_put Black kb (gb_gc b))) b.

Lemma new_game_said size komi b lb lw b' r : both lb lw b -> g_cautious (gb_gc b) = false ->
  start_new_game chr size komi b = (b', r) ->
  exists mb mw, talked b b' /\ both (lb ++ mb) (lw ++ mw) b' /\ prefix_of mb (resetting b) /\ prefix_of mw (resetting b) /\
    (r = Ok tt -> mb = resetting b /\ mw = resetting b).
Proof.
  intros (kb & kw & Gb & Gw & Sb & Sw) C H. unfold start_new_game in H.
  assert (Same : talked b b) by (exists kb, kw; destruct b as [[]]; cbn in *; subst; reflexivity).
  assert (Nothing : forall r0, r0 <> Ok tt -> exists mb mw, talked b b /\ both (lb ++ mb) (lw ++ mw) b /\ prefix_of mb (resetting b) /\ prefix_of mw (resetting b) /\
    (r0 = Ok tt -> mb = resetting b /\ mw = resetting b)).
  { intros r0 NR. exists [], []. rewrite !app_nil_r. split; [exact Same|]. split; [exists kb, kw; auto|].
    split; [apply prefix_nil|]. split; [apply prefix_nil|]. intros Q. contradiction. }
  destruct (negb (size =? gb_size b)); [injection H as <- <-; apply Nothing; discriminate|].
  destruct (negb (num_eqb komi (gb_komi b))); [injection H as <- <-; apply Nothing; discriminate|]. clear Nothing Same.
  assert (with_gc (set_cautious_mode false (gb_gc b)) b = b) as E0 by (destruct b as [[]]; cbn in *; subst; reflexivity).
  cbv zeta in H. rewrite E0 in H. clear E0.
  destruct (start_player chr b Black) as [b1 r1] eqn:S1.
  destruct (reset_said _ _ _ _ _ _ C Gb Sb S1) as (kb1 & mb & -> & Sb1 & Pb & Ob).
  assert (Gw1 : g_get White (g_put Black kb1 (gb_gc b)) = Some kw) by exact Gw.
  destruct r1 as [u|e].
  - destruct (reset_said (with_gc (g_put Black kb1 (gb_gc b)) b) White kw lw b' r C Gw1 Sw H) as (kw1 & mw & -> & Sw1 & Pw & Ow).
    exists mb, mw. split; [exists kb1, kw1; reflexivity|]. split; [exists kb1, kw1; auto|]. split; [exact Pb|]. split; [exact Pw|].
    intros Q. destruct u. split; [apply Ob; reflexivity|apply Ow; exact Q].
  - injection H as <- <-. exists mb, []. rewrite app_nil_r. split; [exists kb1, kw; cbn; destruct b as [[]]; cbn in *; subst; reflexivity|].
    split; [exists kb1, kw; auto|]. split; [exact Pb|]. split; [apply prefix_nil|]. discriminate.
Qed.
Definition plus (c d : colour) (x : command) : list command := if colour_eqb c d then [x] else [].

Lemma talked_trans a b c : talked a b -> talked b c -> talked a c.
Proof. intros (kb & kw & ->) (kb' & kw' & ->). exists kb', kw'. destruct a as [[]]; reflexivity. Qed.
Lemma talked_same lb lw b : both lb lw b -> talked b b.
Proof. intros (kb & kw & Gb & Gw & _). exists kb, kw. destruct b as [[]]; cbn in *; subst; reflexivity. Qed.

Lemma both_send lb lw b c cmd args g' r : both lb lw b -> g_cautious (gb_gc b) = false ->
  send_command chr (gb_gc b) c cmd args = (g', r) ->
  both (lb ++ plus c Black (cmd, args)) (lw ++ plus c White (cmd, args)) (with_gc g' b) /\ talked b (with_gc g' b) /\ g_cautious g' = false.
Proof.
  intros (kb & kw & Gb & Gw & Sb & Sw) C S. destruct c.
  - destruct (send_said _ _ _ _ _ _ _ _ C Gb Sb S) as (k' & -> & Sd & _). cbn [plus colour_eqb]. rewrite app_nil_r.
    split; [exists k', kw; auto|]. split; [exists k', kw|exact C]. destruct b as [[]]; cbn in *; subst; reflexivity.
  - destruct (send_said _ _ _ _ _ _ _ _ C Gw Sw S) as (k' & -> & Sd & _). cbn [plus colour_eqb]. rewrite app_nil_r.
    split; [exists kb, k'; auto|]. split; [exists kb, k'|exact C]. destruct b as [[]]; cbn in *; subst; reflexivity.
Qed.

(** What is said of [h] to the two players. *)
Definition handicap_talk (lb lw : list command) (b b' : gbackend (X * list cevent)) (done : Prop) : Prop :=
  exists mb mw hb hw, talked b b' /\ both (lb ++ mb) (lw ++ mw) b' /\ handicapping j Black hb /\ handicapping j White hw /\
    prefix_of mb hb /\ prefix_of mw hw /\ (done -> mb = hb /\ mw = hw).

Lemma no_handicap_talk lb lw b (done : Prop) : both lb lw b -> ~ done -> handicap_talk lb lw b b done.
Proof.
  intros Bo ND. destruct (some_handicapping Black) as (hb & Hb). destruct (some_handicapping White) as (hw & Hw).
  exists [], [], hb, hw. rewrite !app_nil_r. split; [eapply talked_same; exact Bo|]. split; [exact Bo|]. split; [exact Hb|]. split; [exact Hw|].
  split; [apply prefix_nil|]. split; [apply prefix_nil|]. intros D. contradiction.
Qed.

Lemma handicap_said sanitise pick rn b n lb lw rn' b' x : gj_handicap j = Some n -> n <> 0 ->
  both lb lw b -> g_cautious (gb_gc b) = false ->
  set_handicap (gtp_backend chr sanitise pick None) rn b n (gj_free j) = (rn', b', x) ->
  handicap_talk lb lw b b' (x = Ok tt).
Proof.
  intros Hn N0 Bo C H. unfold set_handicap in H.
  assert (Hdef : forall c l, handicapping j c l <->
      if gj_free j then match c with Black => l = [(str "place_free_handicap", [str_int n])] | White => exists vertices, l = [(str "set_free_handicap", vertices)] end
      else l = [(str "fixed_handicap", [str_int n])]).
  { intros c l. unfold handicapping. rewrite Hn. destruct n; [congruence| |]; apply iff_refl. }
  destruct (negb (ru_state rn =? 1)); [injection H as <- <- <-; apply no_handicap_talk; [exact Bo|discriminate]|].
  destruct (gj_free j) eqn:Fr.
  - destruct (negb _); [injection H as <- <- <-; apply no_handicap_talk; [exact Bo|discriminate]|].
    cbv zeta in H. cbn [gtp_backend b_free b_notify_free] in H. unfold get_free_handicap in H.
    destruct (negb _); [injection H as <- <- <-; apply no_handicap_talk; [exact Bo|discriminate]|].
    destruct (send_command chr (gb_gc b) Black (str "place_free_handicap") [str_int n]) as [g1 r1] eqn:S1.
    destruct (both_send _ _ _ _ _ _ _ _ Bo C S1) as (Bo1 & T1 & C1).
    change (plus Black Black (str "place_free_handicap", [str_int n])) with [(str "place_free_handicap", [str_int n])] in Bo1.
    change (plus Black White (str "place_free_handicap", [str_int n])) with (@nil command) in Bo1.
    assert (Half : forall done : Prop, ~ done -> handicap_talk lb lw b (with_gc g1 b) done).
    { intros done ND. exists [(str "place_free_handicap", [str_int n])], [], [(str "place_free_handicap", [str_int n])], [(str "set_free_handicap", [])].
      split; [exact T1|]. split; [exact Bo1|]. split; [apply Hdef; reflexivity|]. split; [apply Hdef; exists []; reflexivity|].
      split; [apply prefix_refl|]. split; [apply prefix_nil|]. intros D; contradiction. }
    destruct r1 as [vs|m y|kd m|e]; try (injection H as <- <- <-; apply Half; discriminate).
    destruct (mapm _ (split_on char_sp vs)) as [moves|e]; [|injection H as <- <- <-; apply Half; discriminate].
    destruct (all_points moves) as [pts|]; [|injection H as <- <- <-; apply Half; discriminate].
    destruct (has_duplicate pts); [injection H as <- <- <-; apply Half; discriminate|].
    unfold notify_free_handicap in H.
    destruct (mapm _ pts) as [vertices|e]; [|injection H as <- <- <-; apply Half; discriminate].
    change (gb_gc (with_gc g1 b)) with g1 in H.
    destruct (send_command chr g1 White (str "set_free_handicap") vertices) as [g2 r2] eqn:S2.
    destruct (both_send _ _ (with_gc g1 b) _ _ _ _ _ Bo1 C1 S2) as (Bo2 & T2 & C2).
    change (with_gc g2 (with_gc g1 b)) with (with_gc g2 b) in *.
    assert (handicap_talk lb lw b (with_gc g2 b) True) as Full.
    { exists [(str "place_free_handicap", [str_int n])], [(str "set_free_handicap", vertices)], [(str "place_free_handicap", [str_int n])], [(str "set_free_handicap", vertices)].
      split; [eapply talked_trans; eauto|]. split; [rewrite !app_nil_r in Bo2; exact Bo2|]. split; [apply Hdef; reflexivity|]. split; [apply Hdef; exists vertices; reflexivity|].
      split; [apply prefix_refl|]. split; [apply prefix_refl|]. auto. }
    assert (b' = with_gc g2 b) as -> by (destruct (bind (to_res r2) _); congruence).
    destruct Full as (mb & mw & hb & hw & F1 & F2 & F3 & F4 & F5 & F6 & F7). exists mb, mw, hb, hw. repeat (split; [assumption|]). intros _. apply F7. exact I.
  - destruct (handicap_points n (ru_size rn)) as [pts|e]; [|injection H as <- <- <-; apply no_handicap_talk; [exact Bo|discriminate]].
    cbv zeta in H. cbn [gtp_backend b_notify_fixed] in H. unfold notify_fixed_handicap in H at 1.
    destruct (negb _); [injection H as <- <- <-; apply no_handicap_talk; [exact Bo|discriminate]|].
    destruct (send_command chr (gb_gc b) Black (str "fixed_handicap") [str_int n]) as [g1 r1] eqn:S1.
    destruct (both_send _ _ _ _ _ _ _ _ Bo C S1) as (Bo1 & T1 & C1).
    change (plus Black Black (str "fixed_handicap", [str_int n])) with [(str "fixed_handicap", [str_int n])] in Bo1.
    change (plus Black White (str "fixed_handicap", [str_int n])) with (@nil command) in Bo1.
    assert (Half : forall done : Prop, ~ done -> handicap_talk lb lw b (with_gc g1 b) done).
    { intros done ND. exists [(str "fixed_handicap", [str_int n])], [], [(str "fixed_handicap", [str_int n])], [(str "fixed_handicap", [str_int n])].
      split; [exact T1|]. split; [exact Bo1|]. split; [apply Hdef; reflexivity|]. split; [apply Hdef; reflexivity|].
      split; [apply prefix_refl|]. split; [apply prefix_nil|]. intros D; contradiction. }
    destruct r1 as [vs|m y|kd m|e]; try (injection H as <- <- <-; apply Half; discriminate).
    destruct (mapm _ (split_on char_sp vs)) as [seen|e]; [|injection H as <- <- <-; apply Half; discriminate].
    destruct (same_set seen (map Some pts)); [|injection H as <- <- <-; apply Half; discriminate].
    unfold notify_fixed_handicap in H.
    destruct (negb _); [injection H as <- <- <-; apply Half; discriminate|].
    change (gb_gc (with_gc g1 b)) with g1 in H.
    destruct (send_command chr g1 White (str "fixed_handicap") [str_int n]) as [g2 r2] eqn:S2.
    destruct (both_send _ _ (with_gc g1 b) _ _ _ _ _ Bo1 C1 S2) as (Bo2 & T2 & C2).
    change (with_gc g2 (with_gc g1 b)) with (with_gc g2 b) in *.
    assert (Full : forall done : Prop, handicap_talk lb lw b (with_gc g2 b) done).
    { intros done. exists [(str "fixed_handicap", [str_int n])], [(str "fixed_handicap", [str_int n])], [(str "fixed_handicap", [str_int n])], [(str "fixed_handicap", [str_int n])].
      split; [eapply talked_trans; eauto|]. split; [rewrite !app_nil_r in Bo2; exact Bo2|]. split; [apply Hdef; reflexivity|]. split; [apply Hdef; reflexivity|].
      split; [apply prefix_refl|]. split; [apply prefix_refl|]. auto. }
    assert (b' = with_gc g2 b) as ->; [|apply Full].
    destruct r2 as [vs2|m y|kd m|e]; cbn [to_res bind] in H; try congruence.
    destruct (mapm _ (split_on char_sp vs2)) as [seen2|e]; [|congruence]. destruct (same_set seen2 (map Some pts)); congruence.
Qed.
End Talk.
