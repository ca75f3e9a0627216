(** What talking to the engines of a game leaves as it was (C62). *)
From Verif Require Import Base Bytes PyStr Dict BoardModel CommonModel SgfPropsModel GameplayModel
  ControllerModel GtpGameModel RunInvProofs.

Section Kept.
Context {X : Type} (ch : colour -> channel X) (sanitise : bytes -> bytes).
Variable P : colour -> controller X -> Prop.
Hypothesis Pdo : forall c k cmd args, P c k -> P c (fst (do_command (ch c) k cmd args)).
Hypothesis Psafe : forall c k cmd args, P c k -> P c (fst (safe_do_command (ch c) k cmd args)).
Hypothesis Pknown : forall c k cmd, P c k -> P c (fst (known_command (ch c) k cmd)).
Hypothesis Psafe_known : forall c k cmd, P c k -> P c (fst (safe_known_command (ch c) k cmd)).

Record kept (g0 g : gctl X) : Prop := mkKeptG {
  kp_holds : forall c k, g_get c g = Some k -> P c k;
  kp_there : forall c, g_get c g = None <-> g_get c g0 = None;
  kp_codes : g_code_b g = g_code_b g0 /\ g_code_w g = g_code_w g0;
  kp_late : g_late g = g_late g0
}.

Lemma get_put_k c d k (g : gctl X) : g_get c (g_put d k g) = if colour_eqb c d then Some k else g_get c g.
Proof. destruct c, d; reflexivity. Qed.

Lemma put_kept g0 g c k k' : kept g0 g -> g_get c g = Some k -> P c k' -> kept g0 (g_put c k' g).
Proof.
  intros [A B (C & D) E] G Pk. constructor.
  - intros d k1. rewrite get_put_k. destruct (colour_eqb_spec d c) as [->|N]; [intros H; injection H as <-; exact Pk|apply A].
  - intros d. rewrite get_put_k. destruct (colour_eqb_spec d c) as [->|N]; [|apply B].
    split; [discriminate|]. intros H. apply B in H. congruence.
  - destruct c; auto.
  - destruct c; exact E.
Qed.

Lemma on_player_kept {A} g0 c g (f : controller X -> controller X * cres A) :
  (forall k, P c k -> P c (fst (f k))) -> kept g0 g -> kept g0 (fst (on_player c g f)).
Proof.
  intros F K. unfold on_player. destruct (g_get c g) as [k|] eqn:G; [|exact K].
  pose proof (F k (kp_holds _ _ K c k G)) as H. destruct (f k) as [k' r]. exact (put_kept _ _ _ _ _ K G H).
Qed.

Lemma on_player_cautious {A} c g (f : controller X -> controller X * cres A) : g_cautious (fst (on_player c g f)) = g_cautious g.
Proof. unfold on_player. destruct (g_get c g) as [k|]; [|reflexivity]. destruct (f k). destruct c; reflexivity. Qed.

Lemma send_kept g0 g c cmd args : kept g0 g -> kept g0 (fst (send_command ch g c cmd args)).
Proof.
  intros K. unfold send_command. destruct (g_cautious g); [|apply on_player_kept; auto].
  pose proof (on_player_kept g0 c g (fun k => safe_do_command (ch c) k cmd args) (fun k => Psafe c k cmd args) K) as H.
  destruct (on_player c g _) as [g' [[t|]|m x|k m|e]]; exact H.
Qed.

Lemma gknown_kept g0 g c cmd : kept g0 g -> kept g0 (fst (g_known_command ch g c cmd)).
Proof. intros K. apply on_player_kept; [|exact K]. intros k H. destruct (g_cautious g); auto. Qed.

Lemma maybe_kept g0 g c cmd args : kept g0 g -> kept g0 (fst (maybe_send_command ch g c cmd args)).
Proof.
  intros K. unfold maybe_send_command. pose proof (gknown_kept g0 g c cmd K) as H.
  destruct (g_known_command ch g c cmd) as [g1 [[]|m x|k m|e]]; try exact H. cbn [fst] in H.
  assert (forall k, P c k -> P c (fst (if g_cautious g then safe_do_command (ch c) k cmd args else plain_do_command (ch c) k cmd args))) as F.
  { intros k Pk. destruct (g_cautious g); [auto|]. unfold plain_do_command. pose proof (Pdo c k cmd args Pk) as D.
    destruct (do_command (ch c) k cmd args) as [k' [t|m x|kd m|e]]; exact D. }
  pose proof (on_player_kept g0 c g1 _ F H) as H'.
  destruct (on_player c g1 _) as [g2 [t|m x|k m|e]]; exact H'.
Qed.

Lemma cpu_kept g0 g c : kept g0 g -> kept g0 (fst (cpu_time ch c g)).
Proof.
  intros K. unfold cpu_time. pose proof (gknown_kept g0 g c (str "gomill-cpu_time") K) as H.
  destruct (g_known_command ch g c _) as [g1 [[]|m x|k m|e]]; try exact H. cbn [fst] in H.
  pose proof (maybe_kept g0 g1 c (str "gomill-cpu_time") [] H) as H'.
  destruct (maybe_send_command ch g1 c _ []) as [g2 [[t|]|m x|k m|[]]]; exact H'.
Qed.

Lemma times_kept g0 g : kept g0 g -> kept g0 (fst (get_gtp_cpu_times ch g)).
Proof.
  intros K. unfold get_gtp_cpu_times. pose proof (cpu_kept g0 g Black K) as H.
  destruct (cpu_time ch Black g) as [g1 [b|m x|k m|e]]; try exact H. cbn [fst] in H.
  pose proof (cpu_kept g0 g1 White H) as H'. destruct (cpu_time ch White g1) as [g2 [w|m x|k m|e]]; exact H'.
Qed.

Lemma ask_kept g0 g c size may cmd args : kept g0 g -> kept g0 (fst (ask_move ch g c size may cmd args)).
Proof.
  intros K. unfold ask_move. pose proof (send_kept g0 g c cmd args K) as H.
  destruct (send_command ch g c cmd args) as [g1 [t|m x|k m|e]]; exact H.
Qed.

Lemma scores_kept g0 l : forall g, kept g0 g -> kept g0 (fst (ask_scores ch g l)).
Proof.
  induction l as [|c l IH]; intros g K; [exact K|]. cbn [ask_scores]. pose proof (maybe_kept g0 g c (str "final_score") [] K) as H.
  destruct (maybe_send_command ch g c _ []) as [g1 [t|m x|k m|e]]; try exact H. cbn [fst] in H. specialize (IH g1 H).
  destruct (ask_scores ch g1 l) as [g2 [t'|m x|k m|e]]; exact IH.
Qed.

Lemma cautious_kept g0 g b : kept g0 g -> kept g0 (set_cautious_mode b g).
Proof. intros [A B C D]. constructor; auto. Qed.

(** The backend's settings. *)
Record settled (s0 s : gbackend X) : Prop := mkSettled {
  st_kept : kept (gb_gc s0) (gb_gc s);
  st_size : gb_size s = gb_size s0;
  st_komi : gb_komi s = gb_komi s0 /\ gb_komi_text s = gb_komi_text s0;
  st_claims : gb_claim_b s = gb_claim_b s0 /\ gb_claim_w s = gb_claim_w s0;
  st_scorers : gb_scorers s = gb_scorers s0 /\ gb_internal s = gb_internal s0 /\ gb_comp s = gb_comp s0;
  st_handicap : gb_handicap s = gb_handicap s0
}.

Lemma gc_settled s0 s g : settled s0 s -> kept (gb_gc s0) g -> settled s0 (with_gc g s).
Proof. intros [A B C D E F] K. constructor; auto. Qed.
Lemma raw_settled s0 s l : settled s0 s -> settled s0 (with_raw l s).
Proof. intros [A B C D E F]. constructor; auto. Qed.

Notation keeps s0 f := (keeps_state (settled s0) f).

Lemma start_player_kept s0 s c : settled s0 s -> settled s0 (fst (start_player ch s c)).
Proof.
  intros H. pose proof (st_kept _ _ H) as K. unfold start_player.
  pose proof (send_kept _ (gb_gc s) c (str "boardsize") [str_int (gb_size s)] K) as K1.
  destruct (send_command ch (gb_gc s) c _ _) as [g1 [t|m x|k m|e]]; cbn [fst] in *; try (apply gc_settled; assumption).
  pose proof (send_kept _ g1 c (str "clear_board") [] K1) as K2.
  destruct (send_command ch g1 c _ _) as [g2 [t2|m x|k m|e]]; cbn [fst] in *; try (apply gc_settled; assumption).
  pose proof (send_kept _ g2 c (str "komi") [gb_komi_text s] K2) as K3.
  destruct (send_command ch g2 c _ _) as [g3 [t3|m x|k m|e]]; cbn [fst] in *; apply gc_settled; assumption.
Qed.

Lemma start_kept s0 size komi : keeps s0 (start_new_game ch size komi).
Proof.
  intros s H. unfold start_new_game. destruct (negb _); [exact H|]. destruct (negb _); [exact H|]. cbv zeta.
  assert (settled s0 (with_gc (set_cautious_mode false (gb_gc s)) s)) as H0 by (apply gc_settled; [exact H|apply cautious_kept, (st_kept _ _ H)]).
  pose proof (start_player_kept s0 _ Black H0) as H1. destruct (start_player ch _ Black) as [s1 [u|e]]; [|exact H1].
  exact (start_player_kept s0 s1 White H1).
Qed.

Lemma free_kept s0 n : keeps s0 (get_free_handicap ch n).
Proof.
  intros s H. unfold get_free_handicap. destruct (negb _); [exact H|].
  pose proof (send_kept _ (gb_gc s) Black (str "place_free_handicap") [str_int n] (st_kept _ _ H)) as K.
  destruct (send_command ch (gb_gc s) Black _ _) as [g1 [t|m x|k m|e]]; apply gc_settled; assumption.
Qed.
Lemma notify_free_kept s0 pts : keeps s0 (notify_free_handicap ch pts).
Proof.
  intros s H. unfold notify_free_handicap. destruct (mapm _ pts) as [vs|e]; [|exact H].
  pose proof (send_kept _ (gb_gc s) White (str "set_free_handicap") vs (st_kept _ _ H)) as K.
  destruct (send_command ch (gb_gc s) White _ _) as [g1 r]; apply gc_settled; assumption.
Qed.
Lemma notify_fixed_kept s0 c n pts : keeps s0 (notify_fixed_handicap ch c n pts).
Proof.
  intros s H. unfold notify_fixed_handicap. destruct (negb _); [exact H|].
  pose proof (send_kept _ (gb_gc s) c (str "fixed_handicap") [str_int n] (st_kept _ _ H)) as K.
  destruct (send_command ch (gb_gc s) c _ _) as [g1 [t|m x|k m|e]]; apply gc_settled; assumption.
Qed.

Lemma end_kept s0 : keeps s0 (@end_game X).
Proof. intros s H. apply gc_settled; [exact H|]. apply cautious_kept, (st_kept _ _ H). Qed.

Lemma get_move_kept s0 c : keeps s0 (get_move ch c).
Proof.
  intros s H. pose proof (st_kept _ _ H) as K. unfold get_move. destruct (claim_allowed c s).
  - pose proof (gknown_kept _ (gb_gc s) c (str "gomill-genmove_ex") K) as K1.
    destruct (g_known_command ch (gb_gc s) c _) as [g1 [[]|m x|k m|e]]; cbn [fst] in K1; try (apply gc_settled; assumption).
    + pose proof (ask_kept _ g1 c (gb_size s) true (str "gomill-genmove_ex") [colour_letter c; str "claim"] K1) as A.
      destruct (ask_move ch g1 c _ _ _ _) as [g2 r]. apply gc_settled; assumption.
    + pose proof (ask_kept _ g1 c (gb_size s) false (str "genmove") [colour_letter c] K1) as A.
      destruct (ask_move ch g1 c _ _ _ _) as [g2 r]. apply gc_settled; assumption.
  - pose proof (ask_kept _ (gb_gc s) c (gb_size s) false (str "genmove") [colour_letter c] K) as A.
    destruct (ask_move ch (gb_gc s) c _ _ _ _) as [g2 r]. apply gc_settled; assumption.
Qed.

Lemma notify_kept s0 c m : keeps s0 (notify_move ch c m).
Proof.
  intros s H. unfold notify_move. destruct (format_vertex m) as [v|e]; [|exact H].
  pose proof (send_kept _ (gb_gc s) c (str "play") [colour_letter (opponent_of c); v] (st_kept _ _ H)) as A.
  destruct (send_command ch (gb_gc s) c _ _) as [g1 [t|msg x|k msg|e]]; apply gc_settled; assumption.
Qed.

Lemma score_kept s0 pick b : keeps s0 (score_game ch pick b).
Proof.
  intros s H. unfold score_game. destruct (gb_internal s); [exact H|]. unfold score_game_gtp.
  pose proof (scores_kept _ (gb_scorers s) (gb_gc s) (st_kept _ _ H)) as A.
  destruct (ask_scores ch (gb_gc s) (gb_scorers s)) as [g1 [t|m x|k m|e]]; try (apply gc_settled; assumption).
  apply raw_settled, gc_settled; assumption.
Qed.

Lemma comment_kept s0 c : keeps s0 (get_last_move_comment ch sanitise c).
Proof.
  intros s H. unfold get_last_move_comment. pose proof (maybe_kept _ (gb_gc s) c (str "gomill-explain_last_move") [] (st_kept _ _ H)) as A.
  destruct (maybe_send_command ch (gb_gc s) c _ []) as [g1 r]. apply gc_settled; assumption.
Qed.

Lemma backend_settled pick s0 : well_kept (gtp_backend ch sanitise pick None) (settled s0) (fun _ => True).
Proof.
  constructor; cbn [gtp_backend b_end b_get_move b_notify b_score b_comment b_after].
  - apply end_kept.
  - apply get_move_kept.
  - intros c m. apply notify_kept.
  - intros b. apply score_kept.
  - apply comment_kept.
  - intros f c m b E. discriminate.
  - auto.
Qed.

Lemma no_comments r : ru_result r = None -> well_commented (fun _ => True) r.
Proof. intros E. constructor; auto. rewrite E. discriminate. Qed.

Lemma run_gtp_kept pick fuel (g g' : gtp_game X) out s0 : settled s0 (ga_backend g) -> ru_result (ga_runner g) = None ->
  run_gtp_game ch sanitise pick None fuel g = (g', out) -> settled s0 (ga_backend g') /\ ga_id g' = ga_id g.
Proof.
  intros H W. unfold run_gtp_game.
  destruct (run (gtp_backend ch sanitise pick None) fuel pick (ga_runner g) (ga_backend g)) as [[r1 s1] o] eqn:R.
  destruct (run_kept _ _ _ (backend_settled pick s0) pick fuel _ _ _ _ _ H (no_comments _ W) R) as (C & _).
  destruct o as [u|e]; [|intros E; injection E as <- <-; auto]. destruct (ru_result r1) as [x|]; [|intros E; injection E as <- <-; auto].
  cbv zeta. pose proof (times_kept _ (gb_gc s1) (st_kept _ _ C)) as T.
  destruct (get_gtp_cpu_times ch (gb_gc s1)) as [gc2 [[[tb eb] [tw ew]]|m y|k m|e]]; intros E; injection E as <- <-; cbn [ga_backend ga_id];
    (split; [apply gc_settled; [exact C|exact T]|reflexivity]).
Qed.

Lemma prepare_kept pick s0 r s : settled s0 s ->
  match prepare (gtp_backend ch sanitise pick None) r s with (_, s', _) => settled s0 s' end.
Proof.
  intros H. unfold prepare. destruct (negb _); [exact H|]. pose proof (start_kept s0 (ru_size r) (ru_komi r) s H) as K.
  cbn [gtp_backend b_start]. destruct (start_new_game ch _ _ s) as [s1 [u|e]]; exact K.
Qed.

Lemma handicap_kept pick s0 r s n fr : settled s0 s ->
  match set_handicap (gtp_backend ch sanitise pick None) r s n fr with (_, s', _) => settled s0 s' end.
Proof.
  intros H. unfold set_handicap. destruct (negb _); [exact H|]. destruct fr.
  - destruct (negb _); [exact H|]. cbv zeta. cbn [gtp_backend b_free b_notify_free].
    pose proof (free_kept s0 n s H) as K. destruct (get_free_handicap ch n s) as [s1 [pts|e]]; [|exact K]. cbn [fst] in K.
    pose proof (notify_free_kept s0 pts s1 K) as K2. destruct (notify_free_handicap ch pts s1) as [s2 [u|e]]; exact K2.
  - destruct (handicap_points n (ru_size r)) as [pts|e]; [|exact H]. cbv zeta. cbn [gtp_backend b_notify_fixed].
    pose proof (notify_fixed_kept s0 Black n pts s H) as K. destruct (notify_fixed_handicap ch Black n pts s) as [s1 [u|e]]; [|exact K]. cbn [fst] in K.
    pose proof (notify_fixed_kept s0 White n pts s1 K) as K2. destruct (notify_fixed_handicap ch White n pts s1) as [s2 [u2|e]]; exact K2.
Qed.
End Kept.
