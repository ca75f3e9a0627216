(** Proofs about twogtp (C80): the records of the games. *)
From Coq Require Import QArith.
From Verif Require Import Base Bytes PyStr Dict BoardModel BoardSpec CommonModel ControllerModel ControllerSpec SgfGrammarModel SgfGrammarSpec SgfTreeConvModel
  SgfPropsModel SgfPropsSpec SgfPropsProofs SgfValueSpec SgfValueProofs SgfTypeErrorProofs SgfTreeModel SgfTreeSpec SgfTreeProofs
  SgfNodeProofs SgfGameProofs SgfTreeMainProofs SgfMovesModel GameplayModel GameplaySpec GameplayRunProofs
  GtpGameModel EngineModel EngineSpec EngineProofs EngineDialogueProofs GameSgfModel GameSgfSpec SgfChainProofs GameSgfProofs GameSgfDocProofs
  GameSgfReadProofs GameSgfMainProofs JobSgfModel JobSgfSpec JobSgfProofs RunInvProofs JobSgfMainProofs JobRunModel TwogtpModel TwogtpSpec.
Open Scope Z_scope.

Section Record.
Context {X : Type}.
Variables (version today : bytes) (write : bytes -> bytes -> option bytes) (o : tw_options) (engines : colour -> engine).
Notation game := (gtp_game (X * list cevent)).

Lemma tw_make_proof (g : game) w : gtp_recordable version today engines g -> reachable_world w ->
  exists w' nodes, then_do (gtp_make_sgf version today engines g w)
      (fun w1 => set_prop w1 (g_root (new_sgf (ru_size (ga_runner g)) w)) (str "AP") (VPair (str "Gomill twogtp") version)) = (w', Ok tt) /\
    reachable_world w' /\
    displays (tw_document version today engines g) w' (List.length (w_games w)) (new_sgf (ru_size (ga_runner g)) w) nodes.
Proof.
  intros RG R. pose proof (rc_size _ (gr_runner _ _ _ _ RG)) as HS.
  destruct (gtp_make_ok w (ru_size (ga_runner g)) HS version today engines g eq_refl RG) as (ps & E & S).
  pose proof (gtp_reachable version today engines g w RG R) as R1. rewrite E in R1 |- *. cbn [fst then_do] in *.
  change (g_root (new_sgf (ru_size (ga_runner g)) w)) with (List.length (w_nodes w)).
  destruct (put_root w (ru_size (ga_runner g)) HS _ _ (str "AP") PT_AP (VPair (str "Gomill twogtp") version) S) as (p2 & E2 & S2);
    [reflexivity|discriminate|discriminate|reflexivity|split; [apply ascii_utf8; reflexivity|apply (gr_texts _ _ _ _ RG); cbn; tauto]|].
  pose proof (shown_root w _ _ _ S) as L.
  pose proof (proj1 (keeps_set _ (List.length (w_nodes w)) (str "AP") (VPair (str "Gomill twogtp") version) R1 L)) as R2. rewrite E2 in R2. cbn [fst] in R2.
  destruct (shown_displays _ _ _ _ R2 S2) as (nodes & D). eexists. exists nodes. split; [exact E2|]. split; [exact R2|exact D].
Qed.

Lemma record_proof i (t t1 : tw_state (X * list cevent)) r : both_engines (tw_run t) = Some engines -> tw_record version today write o i t = (t1, r) ->
  tw_run t1 = tw_run t /\ tw_out t1 = tw_out t /\
  let g := rn_game (tw_run t) in
  match tw_sgfbase o with
  | None => t1 = t /\ r = None
  | Some prefix =>
      (r = None /\ exists text, tw_files t1 = tw_files t ++ [(tw_path prefix i, text)] /\
         (tw_recordable version today engines (tw_world t) [g] -> reachable_world (tw_world t1) /\ tw_shows version today engines g text)) \/
      (tw_files t1 = tw_files t /\ exists text message, write (tw_path prefix i) text = Some message /\
         r = Some (TwExit (str "error writing SGF file: " ++ message)) /\
         (tw_recordable version today engines (tw_world t) [g] -> tw_shows version today engines g text)) \/
      (tw_files t1 = tw_files t /\ exists x, r = Some (TwRaised x) /\ ~ tw_recordable version today engines (tw_world t) [g])
  end.
Proof.
  intros BE H. unfold tw_record in H. destruct (tw_sgfbase o) as [prefix|] eqn:Eo.
  2:{ apply pair_equal_spec in H. destruct H as [<- <-]. auto. }
  rewrite BE in H. cbv zeta in H.
  assert (F : tw_recordable version today engines (tw_world t) [rn_game (tw_run t)] -> exists w' text,
    then_do (gtp_make_sgf version today engines (rn_game (tw_run t)) (tw_world t))
      (fun w1 => set_prop w1 (g_root (new_sgf (ru_size (ga_runner (rn_game (tw_run t)))) (tw_world t))) (str "AP") (VPair (str "Gomill twogtp") version)) = (w', Ok tt) /\
    reachable_world w' /\ serialise_game w' (new_sgf (ru_size (ga_runner (rn_game (tw_run t)))) (tw_world t)) (Some 79) = Ok text /\
    tw_shows version today engines (rn_game (tw_run t)) text).
  { intros (R & FA). inversion FA as [|? ? RG _]; subst. destruct (tw_make_proof _ _ RG R) as (w' & nodes & E & R' & D).
    destruct (saved_proof _ _ _ _ _ (Some 79) R' D (new_sgf_pres _ _)) as (out & S & L).
    { destruct (gtp_props version today engines (rn_game (tw_run t))) as (A & _ & _ & B). eapply named_from; [|exact B]. unfold tw_document. cbn [on_root fst]. rewrite dget_put.
      change (bytes_eqb [] (str "AP")) with false. cbn iota. rewrite A by discriminate. apply root_unnamed. }
    exists w', out. split; [exact E|]. split; [exact R'|]. split; [exact S|]. intros w0 R0.
    destruct (L w0 R0) as (w1 & g' & nodes' & A & B & C & V & R1 & P1). exists w1, g', nodes'. auto 10. }
  destruct (then_do _ _) as [w1 r1] eqn:E in H. destruct r1 as [u|x].
  - destruct (serialise_game w1 _ (Some 79)) as [text|x] eqn:S in H.
    + assert (F' : tw_recordable version today engines (tw_world t) [rn_game (tw_run t)] -> reachable_world w1 /\ tw_shows version today engines (rn_game (tw_run t)) text).
      { intros RR. destruct (F RR) as (w' & text' & E' & R' & S' & Sh). rewrite E in E'. apply pair_equal_spec in E'. destruct E' as [<- _].
        rewrite S in S'. injection S' as <-. auto. }
      destruct (write (tw_path prefix i) text) as [message|] eqn:W; apply pair_equal_spec in H; destruct H as [<- <-]; cbn [tw_run tw_out tw_files tw_world];
        (split; [reflexivity|]); (split; [reflexivity|]).
      * right. left. split; [reflexivity|]. exists text, message. split; [exact W|]. split; [reflexivity|]. intros RR. exact (proj2 (F' RR)).
      * left. split; [reflexivity|]. exists text. split; [reflexivity|exact F'].
    + apply pair_equal_spec in H. destruct H as [<- <-]. split; [reflexivity|]. split; [reflexivity|]. right. right. split; [reflexivity|]. exists x. split; [reflexivity|].
      intros RR. destruct (F RR) as (w' & text' & E' & R' & S' & Sh). rewrite E in E'. apply pair_equal_spec in E'. destruct E' as [<- _]. congruence.
  - apply pair_equal_spec in H. destruct H as [<- <-]. split; [reflexivity|]. split; [reflexivity|]. right. right. split; [reflexivity|]. exists x. split; [reflexivity|].
    intros RR. destruct (F RR) as (w' & text' & E' & _). rewrite E in E'. discriminate.
Qed.
End Record.
