(** Proofs about the records of GTP games (C60, C61): the record of a game that was played. *)
From Coq Require Import QArith.
From Verif Require Import Base Bytes PyStr Dict BoardModel BoardSpec CommonModel SgfGrammarModel SgfGrammarSpec SgfTreeConvModel
  SgfPropsModel SgfPropsSpec SgfValueSpec SgfTreeModel SgfTreeSpec SgfMovesModel SgfMovesSpec SgfMovesProofs GameplayModel GameplaySpec GameplayRunProofs
  ControllerModel GtpGameModel EngineModel EngineSpec EngineProofs GameSgfModel GameSgfSpec GameSgfProofs GameSgfDocProofs
  GameSgfReadProofs GameSgfMainProofs JobSgfModel JobSgfSpec JobSgfProofs RunInvProofs JobSgfMainProofs JobPlayedProofs.
Open Scope Z_scope.

Lemma read_from pick d w i sg nodes size stones moves pos : reachable_world w -> displays d w i sg nodes ->
  g_pres sg = new_presenter (g_size sg) UTF_8 -> g_size sg = size -> 2 <= size -> plays d (stones_list stones) moves ->
  Z.of_nat (List.length (stones_list stones)) < size * size -> starting_position size stones pos ->
  exists b, get_setup_and_moves pick w sg None = (Some b, Ok moves) /\ same_on size (view b) pos.
Proof.
  intros R D P SZ S2 PL FP SP. destruct (free_point size (stones_list stones) ltac:(lia) FP) as (e & OE & NE).
  destruct (read_proof pick d w i sg nodes _ _ e R D P ltac:(lia) PL ltac:(rewrite SZ; exact OE) NE) as (b & Rd1 & Rb & V).
  rewrite SZ in *. exists b. split; [exact Rd1|]. intros p OP. specialize (V p OP). unfold starting_position in SP. fold (stones_list stones) in SP.
  pose proof (black_legal size (stones_list stones) e OE NE) as LG.
  set (pos0 := setup_position empty_position (stones_list stones) [] []) in *.
  assert (pos p = pos0 p) as ->.
  { destruct (SP p OP) as (_ & C2). apply C2. intros (N & NL). apply NL. exact (LG p OP N). }
  unfold pos0, setup_position. cbn [mem_point]. destruct (mem_point p (stones_list stones)) eqn:M.
  - apply V. apply mem_point_In. exact M.
  - apply V. intros I. apply mem_point_In in I. congruence.
Qed.

Lemma root_RE version today r : dget (str "RE") (ct_props (the_root version today r)) =
  option_map (fun s => (PT_simpletext, VText s)) (option_map r_sgf (ru_result r)).
Proof. unfold the_root. destruct (stones_list (ru_stones r)), (ru_handicap r), (ru_result r); reflexivity. Qed.

Lemma gtp_plays version today engines {X} (g : gtp_game X) :
  plays (gtp_document version today engines g) (stones_list (ru_stones (ga_runner g))) (moves_only (ru_moves (ga_runner g))).
Proof.
  destruct (gtp_props version today engines g) as (A & _ & _ & B). apply (plays_from version today); [|exact B].
  intros k I. apply A; cbn in I; intuition; subst; discriminate.
Qed.

Definition winner_of (r : runner) : option colour := match ru_result r with Some x => r_winner x | None => None end.

Lemma winner_from d w i sg nodes version today r :
  displays d w i sg nodes -> dget (str "RE") (ct_props (fst d)) = dget (str "RE") (ct_props (the_root version today r)) ->
  (forall x, ru_result r = Some x -> (exists wi m, scored_result wi m x) \/ (exists e, unscored_result e x)) ->
  get_winner w sg = Ok (winner_of r).
Proof.
  intros D E A. rewrite root_RE in E. rewrite (winner_proof _ w _ sg nodes _ D E). unfold winner_of.
  destruct (ru_result r) as [x|] eqn:X; [|reflexivity]. f_equal. apply (result_winner x); auto.
Qed.

Section Played.
Context {X : Type} (ch : colour -> channel X).
Variables (more : bytes -> nat) (pick : nat -> nat) (fuel : nat) (g g' : gtp_game X) (out : res unit).
Variables (size : Z) (limit : option Z) (stones : option (list point)).
Hypothesis S25 : 2 <= size <= 25.
Hypothesis Rd : ready (ga_runner g) size limit stones.
Hypothesis OB : forall p, In p (stones_list stones) -> on_board size p.
Hypothesis FP : Z.of_nat (List.length (stones_list stones)) < size * size.
Hypothesis NR : ga_result g = None.
Hypothesis RUN : run_gtp_game ch (sanitise_utf8 more) pick None fuel g = (g', out).

(** Any record of the game, made or loaded, is read as the game that was played. *)
Lemma played_read_proof version today d w i sg nodes : reachable_world w -> displays d w i sg nodes ->
  g_pres sg = new_presenter (g_size sg) UTF_8 -> g_size sg = ru_size (ga_runner g') ->
  plays d (stones_list (ru_stones (ga_runner g'))) (moves_only (ru_moves (ga_runner g'))) ->
  (exists b pos, get_setup_and_moves pick w sg None = (Some b, Ok (moves_only (ru_moves (ga_runner g')))) /\
     starting_position size stones pos /\ same_on size (view b) pos /\
     record_is_legal size limit pos (first_player stones) (ru_moves (ga_runner g'))) /\
  (dget (str "RE") (ct_props (fst d)) = dget (str "RE") (ct_props (the_root version today (ga_runner g'))) ->
   get_winner w sg = Ok (winner_of (ga_runner g'))).
Proof.
  intros R D P SZ PL.
  destruct (gtp_run_facts ch more pick fuel g g' out NR (ready_commented g size limit stones Rd) RUN) as (Ei & C & W & (s1 & o & Rn) & F).
  destruct (run_facts _ pick fuel _ _ _ _ o size limit stones S25 Rd OB Rn) as (A1 & A2 & A3 & A4 & A5 & _ & pos & SP & RL).
  split; [|intros E; eapply winner_from; eauto].
  rewrite A4 in PL. destruct (read_from pick d w i sg nodes size stones _ pos R D P ltac:(congruence) (proj1 S25) PL FP SP) as (b & G & SO).
  exists b, pos. auto.
Qed.
End Played.
