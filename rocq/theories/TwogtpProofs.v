(** Proofs about twogtp (C80): the engines and the games. *)
From Verif Require Import Base Bytes PyStr Dict BoardModel BoardSpec CommonModel SgfTreeModel GameplayModel GameplaySpec GameplayProps
  ControllerModel ControllerSpec ControllerProofs
  GtpGameModel GtpGameSpec EngineModel EngineSpec EngineDialogueProofs GameSgfModel JobSgfModel JobSgfSpec JobSgfProofs
  JobRunModel JobRunSpec JobKeptProofs JobLiveProofs JobTalkProofs JobEndProofs TwogtpModel TwogtpSpec.

Section Twogtp.
Context {X : Type} (ch : colour -> channel X).
Variables (sanitise : bytes -> bytes) (pick : nat -> nat).
Variable spawn : colour -> list bytes -> X + bytes.
Variable error_text : gtp_game (X * list cevent) -> exn -> bytes.
Variables (version today : bytes).
Variable write : bytes -> bytes -> option bytes.
Variable o : tw_options.
Variable code : colour -> bytes.
Notation ctl := (controller (X * list cevent)).
Notation gc := (gctl (X * list cevent)).
Notation chr := (fun c => recorded (ch c)).
Notation run_s := (running (X * list cevent)).
Notation alive := (tw_alive ch code).

Lemma alive_live c k : alive c k -> live (ch c) k.
Proof. intros (R & C & N & _). exact (conj R (conj C N)). Qed.
Lemma alive_step c k k' l : alive c k -> step (ch c) k k' l -> alive c k'.
Proof.
  intros (R & C & N & Na & A) St. destruct (sp_live _ _ _ _ St) as (R' & C' & N').
  split; [exact R'|]. split; [exact C'|]. split; [exact N'|]. split; [rewrite (sp_name _ _ _ _ St); exact Na|rewrite (sp_aliases _ _ _ _ St); exact A].
Qed.
Lemma alive_do c k cmd args : alive c k -> alive c (fst (do_command (recorded (ch c)) k cmd args)).
Proof.
  intros C. destruct (do_command (recorded (ch c)) k cmd args) as [k' r] eqn:D.
  destruct (step_do (ch c) _ _ _ _ _ (alive_live _ _ C) D) as (St & _). exact (alive_step _ _ _ _ C St).
Qed.
Lemma alive_safe c k cmd args : alive c k -> alive c (fst (safe_do_command (recorded (ch c)) k cmd args)).
Proof.
  intros C. destruct (safe_do_command (recorded (ch c)) k cmd args) as [k' r] eqn:D.
  destruct (step_safe (ch c) _ _ _ _ _ (alive_live _ _ C) D) as (l & St). exact (alive_step _ _ _ _ C St).
Qed.
Lemma alive_known c k cmd : alive c k -> alive c (fst (known_command (recorded (ch c)) k cmd)).
Proof.
  intros C. destruct (known_command (recorded (ch c)) k cmd) as [k' r] eqn:D.
  destruct (step_known (ch c) _ _ _ _ (alive_live _ _ C) D) as [(b & _ & -> & _)|(_ & St & _)]; [exact C|exact (alive_step _ _ _ _ C St)].
Qed.
Lemma alive_safe_known c k cmd : alive c k -> alive c (fst (safe_known_command (recorded (ch c)) k cmd)).
Proof.
  intros C. destruct (safe_known_command (recorded (ch c)) k cmd) as [k' r] eqn:D.
  destruct (step_safe_known (ch c) _ _ _ _ (alive_live _ _ C) D) as (l & St). exact (alive_step _ _ _ _ C St).
Qed.

(** Both engines are running. *)
Definition both_alive (g : gc) : Prop :=
  (forall c, g_code c g = code c) /\ g_late g = [] /\ forall c, exists k, g_get c g = Some k /\ alive c k.

(** Telling an engine something, before the end of a game. *)
Definition told (g : gc) (c : colour) (k k' : ctl) (l : list command) : Prop :=
  alive c k' /\ prefix_of (trace k) (trace k') /\ sent (trace k') = sent (trace k) ++ l.
Lemma send_told g c k cmd args g' r : g_cautious g = false -> g_get c g = Some k -> alive c k ->
  send_command chr g c cmd args = (g', r) ->
  exists k', g' = g_put c k' g /\ told g c k k' [(cmd, args)].
Proof.
  intros C G A H. unfold send_command in H. rewrite C in H. unfold on_player in H. rewrite G in H.
  destruct (do_command (recorded (ch c)) k cmd args) as [k' r'] eqn:D. injection H as <- <-.
  destruct (step_do (ch c) _ _ _ _ _ (alive_live _ _ A) D) as (St & _). exists k'. split; [reflexivity|].
  split; [exact (alive_step _ _ _ _ A St)|]. split; [exact (sp_more _ _ _ _ St)|]. rewrite (sp_sent _ _ _ _ St).
  destruct A as (_ & _ & _ & _ & ->). reflexivity.
Qed.
Lemma told_trans g c a b d l m : told g c a b l -> told g c b d m -> told g c a d (l ++ m).
Proof.
  intros (A1 & (r1 & P1) & S1) (A2 & (r2 & P2) & S2). split; [exact A2|]. split.
  - exists (r1 ++ r2). rewrite P2, P1, app_assoc. reflexivity.
  - rewrite S2, S1, app_assoc. reflexivity.
Qed.

Definition resetting_of (b : gbackend (X * list cevent)) : list command :=
  [(str "boardsize", [str_int (gb_size b)]); (str "clear_board", []); (str "komi", [gb_komi_text b])].
Lemma reset_told b c k b' r : g_cautious (gb_gc b) = false -> g_get c (gb_gc b) = Some k -> alive c k ->
  start_player chr b c = (b', r) ->
  exists k', b' = with_gc (g_put c k' (gb_gc b)) b /\ alive c k' /\ (r = Ok tt -> told (gb_gc b) c k k' (resetting_of b)).
Proof.
  intros C G A H. unfold start_player in H.
  destruct (send_command chr (gb_gc b) c (str "boardsize") [str_int (gb_size b)]) as [g1 r1] eqn:S1.
  destruct (send_told _ _ _ _ _ _ _ C G A S1) as (k1 & -> & T1). pose proof (proj1 T1) as A1.
  assert (C1 : forall k, g_cautious (g_put c k (gb_gc b)) = false) by (intros; rewrite cautious_put; exact C).
  destruct (send_command chr (g_put c k1 (gb_gc b)) c (str "clear_board") []) as [g2 r2] eqn:S2.
  destruct (send_told _ _ _ _ _ _ _ (C1 k1) (get_it c k1 (gb_gc b)) A1 S2) as (k2 & E2 & T2). rewrite put_again in E2. subst g2. pose proof (proj1 T2) as A2.
  destruct (send_command chr (g_put c k2 (gb_gc b)) c (str "komi") [gb_komi_text b]) as [g3 r3] eqn:S3.
  destruct (send_told _ _ _ _ _ _ _ (C1 k2) (get_it c k2 (gb_gc b)) A2 S3) as (k3 & E3 & T3). rewrite put_again in E3. subst g3. pose proof (proj1 T3) as A3.
  destruct r1 as [t1|m x|kd m|e].
  2-4: injection H as <- <-; exists k1; split; [reflexivity|]; split; [exact A1|]; discriminate.
  destruct r2 as [t2|m x|kd m|e].
  2-4: injection H as <- <-; exists k2; split; [reflexivity|]; split; [exact A2|]; discriminate.
  destruct r3 as [t3|m x|kd m|e].
  2-4: injection H as <- <-; exists k3; split; [reflexivity|]; split; [exact A3|]; discriminate.
  injection H as <- <-. exists k3. split; [reflexivity|]. split; [exact A3|]. intros _.
  change (resetting_of b) with ([(str "boardsize", [str_int (gb_size b)])] ++ [(str "clear_board", [])] ++ [(str "komi", [gb_komi_text b])]).
  eapply told_trans; [exact T1|]. eapply told_trans; [exact T2|exact T3].
Qed.

Lemma new_game_told size komi b b' r : both_alive (gb_gc b) -> start_new_game chr size komi b = (b', r) ->
  both_alive (gb_gc b') /\ (exists g, b' = with_gc g b) /\
  (r = Ok tt -> g_cautious (gb_gc b') = false /\
     forall c, exists k k', g_get c (gb_gc b) = Some k /\ g_get c (gb_gc b') = Some k' /\ told (gb_gc b) c k k' (resetting_of b)).
Proof.
  intros B H. unfold start_new_game in H.
  assert (N : forall r0, r0 <> Ok tt -> (b, r0) = (b', r) -> both_alive (gb_gc b') /\ (exists g, b' = with_gc g b) /\
    (r = Ok tt -> g_cautious (gb_gc b') = false /\
     forall c, exists k k', g_get c (gb_gc b) = Some k /\ g_get c (gb_gc b') = Some k' /\ told (gb_gc b) c k k' (resetting_of b))).
  { intros r0 NR E. injection E as <- <-. split; [exact B|]. split; [exists (gb_gc b); destruct b; reflexivity|]. intros Q. contradiction. }
  destruct (negb (size =? gb_size b)); [exact (N (Err AssertionError) ltac:(discriminate) H)|].
  destruct (negb (num_eqb komi (gb_komi b))); [exact (N (Err AssertionError) ltac:(discriminate) H)|]. clear N. cbv zeta in H.
  set (b0 := with_gc (set_cautious_mode false (gb_gc b)) b) in H.
  destruct B as (Co & La & Al). destruct (Al Black) as (kb & Gb & Ab). destruct (Al White) as (kw & Gw & Aw).
  destruct (start_player chr b0 Black) as [b1 r1] eqn:S1.
  destruct (reset_told b0 Black kb b1 r1 eq_refl Gb Ab S1) as (kb1 & -> & Ab1 & T1).
  destruct r1 as [u|e].
  - destruct (reset_told (with_gc (g_put Black kb1 (gb_gc b0)) b0) White kw b' r eq_refl Gw Aw H) as (kw1 & -> & Aw1 & T2).
    cbn [with_gc gb_gc]. split; [|split].
    + split; [intros [|]; [exact (Co Black)|exact (Co White)]|]. split; [exact La|]. intros [|]; [exists kb1|exists kw1]; auto.
    + eexists. reflexivity.
    + intros E. split; [reflexivity|]. destruct u. intros [|].
      * exists kb, kb1. split; [exact Gb|]. split; [reflexivity|]. exact (T1 eq_refl).
      * exists kw, kw1. split; [exact Gw|]. split; [reflexivity|]. exact (T2 E).
  - injection H as <- <-. split; [|split; [eexists; reflexivity|discriminate]].
    split; [intros [|]; [exact (Co Black)|exact (Co White)]|]. split; [exact La|]. intros [|]; [exists kb1|exists kw]; auto.
Qed.

Lemma kept_alive s0 s : settled alive s0 s -> both_alive (gb_gc s0) -> both_alive (gb_gc s).
Proof.
  intros K (Co & La & Al). destruct (st_kept _ _ _ K) as [Kh Kt (K1 & K2) Kl]. split; [|split].
  - intros [|]; cbn [g_code]; [rewrite K1; apply (Co Black)|rewrite K2; apply (Co White)].
  - congruence.
  - intros c. destruct (g_get c (gb_gc s)) as [k|] eqn:G; [exists k; split; [reflexivity|exact (Kh c k G)]|].
    exfalso. apply Kt in G. destruct (Al c) as (k & G' & _). congruence.
Qed.
Lemma settled_refl b : both_alive (gb_gc b) -> settled alive b b.
Proof.
  intros (Co & La & Al). constructor; try (split; reflexivity); try reflexivity; [|split; [reflexivity|split; reflexivity]].
  constructor; [|intros c; reflexivity|split; reflexivity|reflexivity]. intros c k G. destruct (Al c) as (k' & G' & A). congruence.
Qed.

(** One game. *)
Lemma play_proof s s' r : both_alive (rn_gc s) -> tw_play chr sanitise pick o s = (s', r) ->
  both_alive (rn_gc s') /\ rn_b s' = rn_b s /\ rn_w s' = rn_w s /\
  (r <> Ok tt /\ ru_moves (ga_runner (rn_game s')) = [] \/
   exists g0, tw_begun ch o code (rn_gc s) g0 /\ run_gtp_game chr sanitise pick None (Z.to_nat 1000) g0 = (rn_game s', r)).
Proof.
  intros B H. unfold tw_play in H. cbv zeta in H.
  set (s0 := mkRunning (tw_new_game o (rn_gc s)) (rn_b s) (rn_w s)) in H.
  destruct (on_game (prepare (the_backend chr sanitise pick)) s0) as [s1 r1] eqn:P.
  unfold on_game in P. unfold prepare in P.
  change (ru_state (ga_runner (rn_game s0)) =? 0) with true in P. cbn [negb] in P. cbn [the_backend gtp_backend b_start] in P.
  change (ga_backend (rn_game s0)) with (ga_backend (tw_new_game o (rn_gc s))) in P.
  destruct (start_new_game chr (ru_size (ga_runner (rn_game s0))) (ru_komi (ga_runner (rn_game s0))) (ga_backend (tw_new_game o (rn_gc s)))) as [b1 x] eqn:N.
  destruct (new_game_told _ _ _ _ _ (B : both_alive (gb_gc (ga_backend (tw_new_game o (rn_gc s))))) N) as (B1 & (g & Eb) & T).
  destruct x as [u|e].
  2:{ injection P as <- <-. injection H as <- <-. split; [exact B1|]. split; [reflexivity|]. split; [reflexivity|]. left. split; [discriminate|reflexivity]. }
  destruct u. injection P as <- <-. cbv iota in H. cbn [rn_game rn_b rn_w] in H. specialize (T eq_refl). destruct T as (Ca & T).
  set (g0 := mkGame (with_state 1 (new_runner (tw_size o) (tw_komi o) (Some 1000))) b1 None None None) in H.
  destruct (run_gtp_game chr sanitise pick None (Z.to_nat 1000) g0) as [g1 r1] eqn:Run. injection H as <- <-. cbn [rn_b rn_w].
  destruct (run_gtp_kept chr sanitise alive alive_do alive_safe alive_known alive_safe_known pick (Z.to_nat 1000) g0 g1 r1 b1 (settled_refl b1 B1)) as (K1 & _);
    [reflexivity|exact Run|].
  split; [exact (kept_alive _ _ K1 B1)|]. split; [reflexivity|]. split; [reflexivity|]. right. exists g0. split; [|exact Run].
  constructor.
  - unfold ready. cbn. auto 10.
  - reflexivity.
  - split; [exact Ca|]. intros c. destruct (T c) as (k & k' & G & G' & (A & _)). exists k'. split; [exact G'|]. destruct A as (R & C & _). auto.
  - cbn [ga_backend g0]. rewrite Eb. split; reflexivity.
  - intros c. cbn [ga_backend g0]. rewrite Eb. destruct c; reflexivity.
  - cbn [ga_backend g0 ga_result ga_id]. rewrite Eb. split; [reflexivity|]. split; reflexivity.
  - intros c. exact (proj1 B1 c).
  - intros c. destruct (T c) as (k & k' & G & G' & (A & Pf & St)). exists k, k'. split; [exact G|]. split; [exact G'|]. split; [exact A|]. split; [exact Pf|]. exact St.
Qed.

(** Closing. *)
Lemma close_proof t f t' e : (forall c k, g_get c (rn_gc (tw_run t)) = Some k -> alive c k) -> g_late (rn_gc (tw_run t)) = [] ->
  tw_close chr t f = (t', e) ->
  tw_out t' = tw_out t /\ tw_files t' = tw_files t /\ tw_world t' = tw_world t /\
  ((exists x, e = TwRaised x) \/
   (e = f (tw_run t') /\ tw_all_closed ch code (rn_gc (tw_run t')) /\ g_late (rn_gc (tw_run t')) = late_errors (rn_gc (tw_run t')) /\
    ((forall c, g_get c (rn_gc (tw_run t)) <> None) -> tw_shut (rn_gc (tw_run t)) (rn_gc (tw_run t'))))) /\
  (forall c, g_get c (rn_gc (tw_run t)) = None -> g_get c (rn_gc (tw_run t')) = None).
Proof.
  intros A L H. unfold tw_close, job_close in H. destruct (close_players chr (rn_gc (tw_run t))) as [g r] eqn:C.
  destruct (close_both_players ch (rn_gc (tw_run t)) g r (fun c k G => alive_live _ _ (A c k G)) C) as (_ & _ & No & Sh & La).
  assert (G' : rn_gc (put_gc g (tw_run t)) = g) by reflexivity.
  destruct r as [u|m x|kd m|x]; injection H as <- <-; cbn [put_run tw_out tw_files tw_world tw_run];
    (split; [reflexivity|]); (split; [reflexivity|]); (split; [reflexivity|]); rewrite ?G'; (split; [|exact No]); try (left; eexists; reflexivity).
  right. split; [reflexivity|]. split; [|split].
  - intros c k Gk. destruct (g_get c (rn_gc (tw_run t))) as [k0|] eqn:G0; [|rewrite (No c G0) in Gk; discriminate].
    destruct (Sh c k0 G0) as (k' & Gk' & S & Is). assert (k' = k) by congruence. subst k'. destruct (Is u eq_refl) as (Cl & On).
    split; [exact (sh_reached _ _ _ _ S)|]. split; [|split; [exact Cl|exact On]]. rewrite (sh_name _ _ _ _ S).
    destruct (A c k0 G0) as (_ & _ & _ & Na & _). exact Na.
  - exact (La u eq_refl L).
  - intros NN c. destruct (g_get c (rn_gc (tw_run t))) as [k0|] eqn:G0; [|elim (NN c G0)]. destruct (Sh c k0 G0) as (k' & Gk' & S & Is).
    exists k0, k'. split; [reflexivity|]. split; [exact Gk'|]. split; [exact (sh_trace _ _ _ _ S)|]. split; [|exact (Is u eq_refl)].
    destruct (sh_sent _ _ _ _ S) as (q & -> & [->| ->]); [left; apply app_nil_r|right].
    destruct (A c k0 G0) as (_ & _ & _ & _ & ->). reflexivity.
Qed.

Lemma both_no g : both_alive g -> (forall c k, g_get c g = Some k -> alive c k) /\ g_late g = [] /\ forall c, g_get c g <> None.
Proof.
  intros (_ & L & B). split; [intros c k G; destruct (B c) as (k' & G' & A); congruence|]. split; [exact L|]. intros c. destruct (B c) as (k & -> & _). discriminate.
Qed.

Lemma late_text g : tw_all_closed ch code g -> late_errors g <> [] -> exists c r, lines (late_errors g) = c :: r.
Proof.
  intros A N. destruct (late_errors g) as [|a l] eqn:E; [congruence|]. clear N.
  assert (In a (late_errors g)) as I by (rewrite E; left; reflexivity).
  assert (exists c r, a = c :: r) as (c & r & ->).
  { assert (forall c k, g_get c g = Some k -> In a (c_errors k) -> exists x r, a = x :: r) as Each.
    { intros c k G Ia. destruct (A c k G) as (R & _). destruct (reached_errors (ch c) k R) as (ts & F).
      clear -F Ia. revert Ia. induction F as [|m t ms ts (what & M) F IH]; intros Ia; [destruct Ia|]. destruct Ia as [<-|Ia]; [|auto].
      rewrite M. destruct what as [|x what]; [|eexists _, _; reflexivity]. destruct (c_name k) as [|x nm]; eexists _, _; reflexivity. }
    unfold late_errors in I. apply in_app_or in I. destruct I as [I|I].
    - destruct (g_get Black g) as [k|] eqn:G; [exact (Each Black k G I)|destruct I].
    - destruct (g_get White g) as [k|] eqn:G; [exact (Each White k G I)|destruct I]. }
  destruct l as [|b l]; [exists c, r; reflexivity|]. cbn [lines app]. eauto.
Qed.
End Twogtp.
