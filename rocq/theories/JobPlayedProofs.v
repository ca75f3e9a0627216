(** Proofs about the records of GTP games (C60, C61): games that were played. *)
From Coq Require Import QArith.
From Verif Require Import Base Bytes PyStr Dict BoardModel BoardSpec CommonModel SgfGrammarModel SgfGrammarSpec SgfTreeConvModel
  SgfPropsModel SgfPropsSpec SgfPropsProofs SgfValueSpec SgfTreeModel SgfTreeSpec SgfMovesModel GameplayModel GameplaySpec GameplayRunProofs
  ControllerModel GtpGameModel EngineModel EngineSpec EngineProofs EngineDialogueProofs GameSgfModel GameSgfSpec GameSgfProofs GameSgfDocProofs
  GameSgfReadProofs GameSgfMainProofs JobSgfModel JobSgfSpec JobSgfProofs RunInvProofs JobSgfMainProofs.
Open Scope Z_scope.

Section Codes.
Context {X : Type} (ch : colour -> channel X) (sanitise : bytes -> bytes).

Definition codes (g : gctl X) : bytes * bytes := (g_code_b g, g_code_w g).

Lemma on_player_codes {A} c (g : gctl X) (f : controller X -> controller X * cres A) : codes (fst (on_player c g f)) = codes g.
Proof. unfold on_player. destruct (g_get c g) as [k|]; [|reflexivity]. destruct (f k). destruct c; reflexivity. Qed.

Lemma send_codes g c cmd args : codes (fst (send_command ch g c cmd args)) = codes g.
Proof.
  unfold send_command. destruct (g_cautious g); [|apply on_player_codes].
  pose proof (on_player_codes c g (fun k => safe_do_command (ch c) k cmd args)) as H.
  destruct (on_player c g _) as [g' [[t|]|m x|k m|e]]; exact H.
Qed.

Lemma known_codes g c cmd : codes (fst (g_known_command ch g c cmd)) = codes g.
Proof. apply on_player_codes. Qed.

Lemma maybe_codes g c cmd args : codes (fst (maybe_send_command ch g c cmd args)) = codes g.
Proof.
  unfold maybe_send_command. pose proof (known_codes g c cmd) as H. destruct (g_known_command ch g c cmd) as [g1 [[]|m x|k m|e]]; try exact H.
  pose proof (on_player_codes c g1 (fun k => if g_cautious g then safe_do_command (ch c) k cmd args else plain_do_command (ch c) k cmd args)) as H'.
  cbn [fst] in H. rewrite H in H'. destruct (on_player c g1 _) as [g2 [t|m x|k m|e]]; exact H'.
Qed.

Lemma cpu_codes g c : codes (fst (cpu_time ch c g)) = codes g.
Proof.
  unfold cpu_time. pose proof (known_codes g c (str "gomill-cpu_time")) as H. destruct (g_known_command ch g c _) as [g1 [[]|m x|k m|e]]; try exact H.
  pose proof (maybe_codes g1 c (str "gomill-cpu_time") []) as H'. cbn [fst] in H. rewrite H in H'.
  destruct (maybe_send_command ch g1 c _ []) as [g2 [[t|]|m x|k m|[]]]; exact H'.
Qed.

Lemma times_codes g : codes (fst (get_gtp_cpu_times ch g)) = codes g.
Proof.
  unfold get_gtp_cpu_times. pose proof (cpu_codes g Black) as H. destruct (cpu_time ch Black g) as [g1 [b|m x|k m|e]]; try exact H.
  pose proof (cpu_codes g1 White) as H'. cbn [fst] in H. rewrite H in H'. destruct (cpu_time ch White g1) as [g2 [w|m x|k m|e]]; exact H'.
Qed.

Lemma ask_codes g c size may cmd args : codes (fst (ask_move ch g c size may cmd args)) = codes g.
Proof.
  unfold ask_move. pose proof (send_codes g c cmd args) as H. destruct (send_command ch g c cmd args) as [g1 [t|m x|k m|e]]; exact H.
Qed.

Lemma scores_codes l : forall g, codes (fst (ask_scores ch g l)) = codes g.
Proof.
  induction l as [|c l IH]; intros g; [reflexivity|]. cbn [ask_scores]. pose proof (maybe_codes g c (str "final_score") []) as H.
  destruct (maybe_send_command ch g c _ []) as [g1 [t|m x|k m|e]]; try exact H. cbn [fst] in H. specialize (IH g1). rewrite H in IH.
  destruct (ask_scores ch g1 l) as [g2 [t'|m x|k m|e]]; exact IH.
Qed.

Lemma backend_kept pick more (cw : bytes * bytes) :
  well_kept (gtp_backend ch (sanitise_utf8 more) pick None) (fun s => codes (gb_gc s) = cw) is_utf8.
Proof.
  constructor; unfold keeps_state; cbn [gtp_backend b_end b_get_move b_notify b_score b_comment b_after].
  - intros s H. exact H.
  - intros c s H. unfold get_move. destruct (claim_allowed c s).
    + pose proof (known_codes (gb_gc s) c (str "gomill-genmove_ex")) as K. destruct (g_known_command ch (gb_gc s) c _) as [g1 [[]|m x|k m|e]]; cbn [fst] in K; rewrite H in K; try exact K.
      * pose proof (ask_codes g1 c (gb_size s) true (str "gomill-genmove_ex") [colour_letter c; str "claim"]) as A.
        destruct (ask_move ch g1 c _ _ _ _) as [g2 r]. cbn [fst] in *. rewrite K in A. exact A.
      * pose proof (ask_codes g1 c (gb_size s) false (str "genmove") [colour_letter c]) as A.
        destruct (ask_move ch g1 c _ _ _ _) as [g2 r]. cbn [fst] in *. rewrite K in A. exact A.
    + pose proof (ask_codes (gb_gc s) c (gb_size s) false (str "genmove") [colour_letter c]) as A.
      destruct (ask_move ch (gb_gc s) c _ _ _ _) as [g2 r]. cbn [fst] in *. rewrite H in A. exact A.
  - intros c m s H. unfold notify_move. destruct (format_vertex m) as [v|e]; [|exact H].
    pose proof (send_codes (gb_gc s) c (str "play") [colour_letter (opponent_of c); v]) as A. rewrite H in A.
    destruct (send_command ch (gb_gc s) c _ _) as [g1 [t|msg x|k msg|e]]; exact A.
  - intros b s H. unfold score_game. destruct (gb_internal s); [exact H|]. unfold score_game_gtp.
    pose proof (scores_codes (gb_scorers s) (gb_gc s)) as A. rewrite H in A. destruct (ask_scores ch (gb_gc s) (gb_scorers s)) as [g1 [t|m x|k m|e]]; exact A.
  - intros c s H. unfold get_last_move_comment. pose proof (maybe_codes (gb_gc s) c (str "gomill-explain_last_move") []) as A. rewrite H in A.
    destruct (maybe_send_command ch (gb_gc s) c _ []) as [g1 r]. exact A.
  - intros f c m b E. discriminate.
  - intros c s t _ E. unfold get_last_move_comment in E. destruct (maybe_send_command ch (gb_gc s) c _ []) as [g1 [[u|]|m x|k m|e]]; cbn in E; try discriminate.
    destruct (sanitise_utf8 more u) as [|x r] eqn:Eu; [discriminate|]. assert (t = x :: r) as -> by congruence. rewrite <- Eu. apply sanitise_utf8_proof.
Qed.
End Codes.

(** ** Games that were played *)

Lemma set_players_facts x cb cw : r_winner (gr_base (set_players x cb cw)) = r_winner x /\ r_sgf (gr_base (set_players x cb cw)) = r_sgf x /\
  r_forfeit (gr_base (set_players x cb cw)) = r_forfeit x /\ r_jigo (gr_base (set_players x cb cw)) = r_jigo x /\
  (r_forfeit x = false -> r_detail (gr_base (set_players x cb cw)) = r_detail x).
Proof. cbn. do 4 (split; [reflexivity|]). intros ->. reflexivity. Qed.

(** What run_gtp_game leaves. *)
Lemma gtp_run_facts {X} (ch : colour -> channel X) more pick fuel (g g' : gtp_game X) out :
  ga_result g = None -> well_commented is_utf8 (ga_runner g) ->
  run_gtp_game ch (sanitise_utf8 more) pick None fuel g = (g', out) ->
  ga_id g' = ga_id g /\ codes (gb_gc (ga_backend g')) = codes (gb_gc (ga_backend g)) /\ well_commented is_utf8 (ga_runner g') /\
  (exists s1 o, run (gtp_backend ch (sanitise_utf8 more) pick None) fuel pick (ga_runner g) (ga_backend g) = (ga_runner g', s1, o)) /\
  forall gr, ga_result g' = Some gr -> exists x, ru_result (ga_runner g') = Some x /\
    gr_base gr = gr_base (set_players x (g_code_b (gb_gc (ga_backend g))) (g_code_w (gb_gc (ga_backend g)))) /\
    gr_player_b gr = g_code_b (gb_gc (ga_backend g)) /\ gr_player_w gr = g_code_w (gb_gc (ga_backend g)).
Proof.
  intros N W. unfold run_gtp_game. destruct (run (gtp_backend ch (sanitise_utf8 more) pick None) fuel pick (ga_runner g) (ga_backend g)) as [[r1 s1] o] eqn:R.
  destruct (run_kept _ _ _ (backend_kept ch pick more (codes (gb_gc (ga_backend g)))) pick fuel _ _ _ _ _ eq_refl W R) as (C & W').
  cbv beta in C. assert (g_code_b (gb_gc s1) = g_code_b (gb_gc (ga_backend g)) /\ g_code_w (gb_gc s1) = g_code_w (gb_gc (ga_backend g))) as (Cb & Cw)
    by (unfold codes in C; split; congruence).
  destruct o as [u|e].
  2:{ intros E. injection E as <- <-. cbn. split; [reflexivity|]. split; [exact C|]. split; [exact W'|]. split; [eauto|]. intros gr X'. congruence. }
  destruct (ru_result r1) as [x|] eqn:Rx.
  2:{ intros E. injection E as <- <-. cbn. split; [reflexivity|]. split; [exact C|]. split; [exact W'|]. split; [eauto|]. intros gr X'. congruence. }
  cbv zeta. pose proof (times_codes ch (gb_gc s1)) as T. rewrite C in T.
  destruct (get_gtp_cpu_times ch (gb_gc s1)) as [gc2 [[[tb eb] [tw ew]]|m y|k m|e]]; intros E; injection E as <- <-; cbn [ga_id ga_backend with_gc gb_gc ga_runner ga_result fst] in *;
    (split; [reflexivity|]); (split; [exact T|]); (split; [exact W'|]); (split; [eauto|]); intros gr G; assert (G' := G); injection G' as <-;
    exists x; rewrite ?Cb, ?Cw; cbn [soft_update_cpu_times gr_base gr_player_b gr_player_w set_players]; auto.
Qed.

(** The texts that come from the engines unchanged: the reason of a forfeit, and the scores. *)
Definition raw_texts {X} (g : gtp_game X) : list bytes :=
  (match ru_result (ga_runner g) with
   | Some x => if r_forfeit x then opt_list (r_detail x) else []
   | None => []
   end) ++ map snd (gb_raw (ga_backend g)).

Ltac ascii := apply ascii_utf8; reflexivity.

Lemma opt_utf8 s : In s [str "players disagreed"; str "no score reported"; str "unknown margin"; str "hit move limit"; str "claim"] -> is_utf8 s.
Proof. intros I. cbn [In] in I. destruct I as [<-|[<-|[<-|[<-|[<-|[]]]]]]; ascii. Qed.

Lemma result_line_utf8 gr : is_utf8 (gr_player_b gr) -> is_utf8 (gr_player_w gr) -> is_utf8 (r_sgf (gr_base gr)) -> maybe_utf8 (r_detail (gr_base gr)) ->
  is_utf8 (result_line gr).
Proof.
  intros A B C D. unfold result_line. apply is_utf8_app.
  - destruct (r_winner (gr_base gr)) as [[]|]; repeat (first [assumption|ascii|apply is_utf8_app]).
  - apply is_utf8_app; [ascii|]. apply is_utf8_app; [destruct (r_jigo _); [ascii|exact C]|].
    destruct (r_detail (gr_base gr)) as [d|]; [|ascii]. apply is_utf8_app; [ascii|]. apply is_utf8_app; [apply D; reflexivity|ascii].
Qed.

Lemma lines_utf8 l : all_utf8 l -> is_utf8 (lines l).
Proof. intros H. rewrite lines_join. apply join_utf8. exact H. Qed.

Lemma scoring_utf8 gr b w : is_utf8 (result_line gr) -> is_utf8 (gr_player_b gr) -> is_utf8 (gr_player_w gr) -> maybe_utf8 b -> maybe_utf8 w ->
  is_utf8 (describe_scoring gr None) /\ is_utf8 (describe_scoring gr (Some (b, w))).
Proof.
  intros R A B Ub Uw.
  assert (forall code o, is_utf8 code -> maybe_utf8 o -> all_utf8 (report_line code o)) as RL.
  { intros code [t|] C D s I; [|destruct I]. destruct I as [<-|[]]. apply is_utf8_app; [exact C|]. apply is_utf8_app; [ascii|]. apply D. reflexivity. }
  assert (forall sc l, extra_lines gr sc l -> (forall x y, sc = Some (x, y) -> x = b /\ y = w) -> all_utf8 l) as EL.
  { intros [[x y]|] l; cbn [extra_lines]; [|intros -> _ s []]. intros [(_ & ->)|(_ & ->)] H s I; [destruct I|].
    destruct (H x y eq_refl) as (-> & ->). apply in_app_or in I as [I|I]; [exact (RL _ _ A Ub s I)|exact (RL _ _ B Uw s I)]. }
  split.
  - destruct (scoring_proof gr None) as (l & E & ->). apply lines_utf8. intros s [<-|I]; [exact R|]. eapply EL; eauto. intros x y K. discriminate.
  - destruct (scoring_proof gr (Some (b, w))) as (l & E & ->). apply lines_utf8. intros s [<-|I]; [exact R|]. eapply EL; eauto. intros x y K. injection K as <- <-. auto.
Qed.

Lemma player_score_in {X} (s : gbackend X) c t : player_score s c = Some t -> In t (map snd (gb_raw s)).
Proof.
  unfold player_score. destruct (gb_internal s); [discriminate|]. destruct (List.find _ (rev (gb_raw s))) as [[d u]|] eqn:F; [|discriminate].
  intros E. injection E as <-. apply find_some in F as (I & _). apply in_rev in I. apply (in_map snd) in I. exact I.
Qed.

Section Played.
Context {X : Type} (ch : colour -> channel X).
Variables (more : bytes -> nat) (pick : nat -> nat) (fuel : nat) (g g' : gtp_game X) (out : res unit).
Variables (size : Z) (limit : option Z) (stones : option (list point)).
Hypothesis S25 : 2 <= size <= 25.
Hypothesis Rd : ready (ga_runner g) size limit stones.
Hypothesis OB : forall p, In p (stones_list stones) -> on_board size p.
Hypothesis KO : komi_ok (ru_komi (ga_runner g)).
Hypothesis NR : ga_result g = None.
Hypothesis RUN : run_gtp_game ch (sanitise_utf8 more) pick None fuel g = (g', out).
Variables (version today : bytes) (engines : colour -> engine).
Hypothesis EN : forall c, exists n v d, new_engine (sanitise_utf8 more) n v d = Ok (engines c).
Hypothesis TX : all_utf8 [version; today; g_code_b (gb_gc (ga_backend g)); g_code_w (gb_gc (ga_backend g))].
Hypothesis ID : maybe_utf8 (ga_id g).
Hypothesis RW : all_utf8 (raw_texts g').

Lemma ready_commented : well_commented is_utf8 (ga_runner g).
Proof.
  destruct Rd as (_ & _ & _ & Q4 & Q5 & _ & Q7 & _). constructor.
  - rewrite Q4. intros m t [].
  - rewrite Q5. discriminate.
  - rewrite Q7. discriminate.
Qed.

Lemma played_result_line gr : ga_result g' = Some gr ->
  is_utf8 (result_line gr) /\ is_utf8 (gr_player_b gr) /\ is_utf8 (gr_player_w gr).
Proof.
  intros E. destruct (gtp_run_facts ch more pick fuel g g' out NR ready_commented RUN) as (Ei & C & W & (s1 & o & R) & F).
  destruct (F gr E) as (x & Rx & Eb & Pb & Pw).
  destruct (run_facts _ pick fuel _ _ _ _ o size limit stones S25 Rd OB R) as (A1 & A2 & A3 & A4 & A5 & _).
  assert (is_utf8 (gr_player_b gr) /\ is_utf8 (gr_player_w gr)) as (Ub & Uw) by (rewrite Pb, Pw; split; apply TX; cbn; tauto).
  split; [|auto]. apply result_line_utf8; auto.
  - rewrite Eb. exact (result_utf8 x (A5 x Rx)).
  - rewrite Eb. intros d Ed. cbn [set_players gr_base r_detail] in Ed. destruct (r_forfeit x) eqn:Fo.
    + set (who := match r_winner x with
                   | Some c => match opponent_of c with Black => g_code_b (gb_gc (ga_backend g)) | White => g_code_w (gb_gc (ga_backend g)) end
                   | None => str "None"
                   end) in Ed.
      set (why := match r_detail x with Some d => d | None => str "None" end) in Ed.
      assert (forall a b : bytes, Some a = Some b -> b = a) as SI by congruence. apply SI in Ed. rewrite Ed.
      apply is_utf8_app; [ascii|]. apply is_utf8_app; [|apply is_utf8_app; [ascii|]].
      * unfold who. destruct (r_winner x) as [[]|]; [apply TX; cbn; tauto|apply TX; cbn; tauto|ascii].
      * unfold why. destruct (r_detail x) as [y|] eqn:Dx; [|ascii]. apply RW. unfold raw_texts. rewrite Rx, Fo, Dx. left. reflexivity.
    + pose proof (wc_result _ _ W x Rx Fo) as SD. rewrite Ed in SD. apply opt_utf8. exact SD.
Qed.

Lemma played_gtp_recordable : gtp_recordable version today engines g'.
Proof.
  destruct (gtp_run_facts ch more pick fuel g g' out NR ready_commented RUN) as (Ei & C & W & (s1 & o & R) & F).
  unfold codes in C. assert (g_code_b (gb_gc (ga_backend g')) = g_code_b (gb_gc (ga_backend g)) /\ g_code_w (gb_gc (ga_backend g')) = g_code_w (gb_gc (ga_backend g))) as (Cb & Cw)
    by (split; congruence).
  constructor.
  - eapply (played_recordable _ pick fuel _ _ _ _ o size limit stones); eauto; [apply (wc_moves _ _ W)|apply (wc_final _ _ W)].
  - rewrite Cb, Cw. exact TX.
  - intros c s E. destruct (EN c) as (n & v & d & H). destruct (describe_utf8 _ n v d _ (sanitise_utf8_proof more) H) as (A & _). exact (A s E).
  - rewrite Ei. exact ID.
  - intros gr E. destruct (played_result_line gr E) as (L & Ub & Uw).
    assert (forall c, maybe_utf8 (player_score (ga_backend g') c)) as PS.
    { intros c t Et. apply RW. unfold raw_texts. apply in_or_app. right. exact (player_score_in _ _ _ Et). }
    destruct (scoring_utf8 gr _ _ L Ub Uw (PS Black) (PS White)) as (S1 & S2).
    unfold game_scores. destruct (ru_score (ga_runner g')); [exact S2|exact S1].
Qed.

Lemma played_job_recordable cpu_text now j message :
  all_utf8 [now; gj_id j; gp_code (gj_b j); gp_code (gj_w j)] ->
  maybe_utf8 (gj_name j) -> maybe_utf8 (gj_event j) -> maybe_utf8 (gj_note j) ->
  (forall x, is_utf8 (cpu_text x)) -> maybe_utf8 message -> maybe_utf8 (describe_late_errors (gb_gc (ga_backend g'))) ->
  job_recordable version today engines cpu_text now j g' message.
Proof.
  intros T N E O U M L. constructor; auto.
  - exact played_gtp_recordable.
  - intros c s Es. destruct (EN c) as (n & v & d & H). destruct (describe_utf8 _ n v d _ (sanitise_utf8_proof more) H) as (_ & A & _). exact (A s Es).
  - intros gr Eg. exact (proj1 (played_result_line gr Eg)).
Qed.
End Played.
