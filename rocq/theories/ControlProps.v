(** C52-C56: what the competitions make of their control files. *)
From Coq Require Import QArith.
From Verif Require Import Base Bytes PyStr Dict SgfPropsSpec CommonModel GameplayModel TournModel TournSpec TournProofs SettingsModel SettingsSpec SettingsProofs
  ControlModel ControlSpec ControlProofs ControlPlayerProofs ControlGameProofs ControlMatchupProofs ControlAllProofs ControlCheckProofs ControlErrorProofs ControlTunerProofs ControlTunerSpecProofs ControlTunerUseProofs.
From Verif Require GtpModel CemModel CemSpec MctsModel MctsSpec.
Open Scope Z_scope.

(** ** A control file *)
Definition demo_en : environment :=
  mkEn (fun s => inl (GtpModel.split_ws s)) (fun s => Some s) (Some (str "/base")) (fun v => match v with VStr s => Good s | _ => wrong end)
       (fun v => match v with VStr s => s | _ => [] end) (fun _ => str "error") (str "key").
Definition vs (s : string) : pyval := VStr (str s).
Definition demo_players : pyval := VDict [
  (vs "gnugo", VConfig (str "Player") [vs "gnugo --mode=gtp"] [(str "startup_gtp_commands", VList [vs "level 5"; VList [vs "komi"; vs "6.5"]])]);
  (vs "alpha", VConfig (str "Player") [] [(str "command", VList [vs "./alpha"; vs "-x"]); (str "cwd", vs "run"); (str "is_reliable_scorer", VBool false);
                                          (str "gtp_aliases", VDict [(vs "name", vs "my_name")])])].
Definition demo_base : dict pyval := [(str "players", demo_players); (str "board_size", VInt 9); (str "komi", VFloat (FNum (15 # 2)))].
Definition demo_playoff : dict pyval := demo_base ++ [
  (str "description", vs " a playoff ");
  (str "matchups", VList [
     VConfig (str "Matchup") [vs "gnugo"; vs "alpha"] [(str "alternating", VBool true); (str "number_of_games", VInt 10)];
     VConfig (str "Matchup") [vs "gnugo"; vs "gnugo"] [(str "id", vs "self"); (str "name", vs "Self"); (str "komi", VInt 0); (str "handicap", VInt 4)]])].
Definition demo_allplayall : dict pyval := demo_base ++ [
  (str "rounds", VInt 3); (str "scorer", vs "internal"); (str "competitors", VList [vs "gnugo"; VConfig (str "Competitor") [vs "alpha"] []])].
Definition demo_num (f : pyfloat) : num := match f with FNum q => (Qnum q * 10 / Zpos (Qden q), 1%nat) | _ => (0, O) end.

Lemma distinct_dict items : (forall i j a b, nth_error items i = Some a -> nth_error items j = Some b -> (i < j)%nat -> py_eqb (fst a) (fst b) = false) -> proper_dict (VDict items).
Proof. intros H it E. injection E as <-. exact H. Qed.
Lemma other_dict v : (forall items, v <> VDict items) -> proper_dict v.
Proof. intros H it E. exfalso. exact (H _ E). Qed.
Ltac dict_tac := first [apply other_dict; discriminate
  |apply distinct_dict; intros [|[|[|i]]] [|[|[|j]]] a b A B L; cbn in A, B; try discriminate; try lia; injection A as <-; injection B as <-; reflexivity].
Ltac call_tac := let cls := fresh in let a := fresh in let k := fresh in let E := fresh in
  intros cls a k E; injection E as <- <- <-; split; [cbn; repeat (constructor; [intros X; repeat (destruct X as [X|X]; [discriminate X|]); exact X|]); constructor|];
  let w := fresh in let I := fresh in intros w I; cbn [In map fst snd] in I; destruct I as [I|I]; repeat (destruct I as [<-|I]; [split; [dict_tac|discriminate]|]); destruct I.
Lemma demo_players_proper config : (forall v, given config (str "players") v -> v = demo_players) -> proper_players config.
Proof.
  intros H v G. rewrite (H v G). split; [dict_tac|]. intros items k w E I. injection E as <-. cbn [In] in I. destruct I as [I|[I|[]]]; injection I as <- <-; call_tac.
Qed.
Lemma given_here config name v w : dget name config = Some v -> (forall c m, v <> VProxy c m) -> given config name w -> w = v.
Proof. intros D N (x & E & H). assert (x = v) by congruence. subst x. destruct H as [[-> _]|(c & H)]; [reflexivity|exfalso; exact (N _ _ H)]. Qed.
Lemma demo_playoff_proper : proper_players demo_playoff /\ proper_matchups demo_playoff.
Proof.
  split; [apply demo_players_proper; intros v; apply given_here; [reflexivity|discriminate]|]. intros v l G E.
  eapply given_here in G; [|cbv; reflexivity|discriminate]. subst v. inversion E as [l' EL| | |]. apply Forall_cons; [call_tac|]. apply Forall_cons; [call_tac|constructor].
Qed.
Lemma demo_allplayall_proper : proper_players demo_allplayall /\ proper_competitors demo_allplayall.
Proof.
  split; [apply demo_players_proper; intros v; apply given_here; [reflexivity|discriminate]|]. intros v l G E.
  eapply given_here in G; [|cbv; reflexivity|discriminate]. subst v. inversion E as [l' EL| | |]. apply Forall_cons; [intros c a k X; discriminate X|]. apply Forall_cons; [call_tac|constructor].
Qed.

(** ** C52: players, and errors *)
Theorem C52_player :
  forall en code cls args kwargs p, proper_call (VConfig cls args kwargs) ->
  player_from_config en code args kwargs = Good p <-> player_described en code args kwargs p.
Proof. exact player_spec. Qed.
Print Assumptions C52_player.

Theorem C52_players :
  forall en settings config attributes players, proper_players config ->
  competition_from_control en settings config = Good (attributes, players) <->
  load_settings settings config true false = Good attributes /\ players_described en config players.
Proof. exact competition_spec. Qed.
Print Assumptions C52_players.

Theorem C52_playoff_errors :
  forall to_num en event_code config e, playoff_from_control to_num en event_code config = Bad e -> control_file_error config ["komi"%string] e.
Proof. exact playoff_errors. Qed.
Print Assumptions C52_playoff_errors.
Theorem C52_allplayall_errors :
  forall to_num en event_code config e, allplayall_from_control to_num en event_code config = Bad e -> control_file_error config ["komi"%string] e.
Proof. exact allplayall_errors. Qed.
Print Assumptions C52_allplayall_errors.
Theorem C52_cem_errors :
  forall V (apply : nat -> pyfloat -> option V) formats to_num en config e, cem_from_control to_num apply formats en config = Bad e ->
  control_file_error config ["komi"%string; "elite_proportion"%string; "step_size"%string] e.
Proof. exact (fun V apply formats to_num => cem_errors apply formats to_num). Qed.
Print Assumptions C52_cem_errors.
Theorem C52_mcts_errors :
  forall V (apply : nat -> pyfloat -> option V) formats to_num en config e, mcts_from_control to_num apply formats en config = Bad e -> mcts_error config e.
Proof. exact (fun V apply formats to_num => mcts_errors apply formats to_num). Qed.
Print Assumptions C52_mcts_errors.

Example C52_demo_players : exists attributes,
  competition_from_control demo_en base_settings demo_playoff = Good (attributes, [
    (str "alpha", mkPlayer (str "alpha") [str "/base/./alpha"; str "-x"] (Some (str "/base/run")) None false false false true [] [(str "name", str "my_name")]);
    (str "gnugo", mkPlayer (str "gnugo") [str "gnugo"; str "--mode=gtp"] None None true false false true [(str "level", [str "5"]); (str "komi", [str "6.5"])] [])]).
Proof. eexists. vm_compute. reflexivity. Qed.
Example C52_demo_errors :
  playoff_from_control demo_num demo_en (str "t") [] = Bad (SControl (str "'players' not specified")) /\
  playoff_from_control demo_num demo_en (str "t") (demo_base ++ [(str "matchups", VList [VConfig (str "Matchup") [vs "gnugo"; vs "nobody"] []])]) =
    Bad (SControl (str "matchup 0: unknown player nobody")) /\
  playoff_from_control demo_num demo_en (str "t") ((str "komi", VInt (10 ^ 400)) :: demo_playoff) = Bad (SOther OverflowError).
Proof. vm_compute. repeat split. Qed.

(** ** C53: playoffs *)
Theorem C53_playoff :
  forall to_num en event_code config tc, proper_players config -> proper_matchups config ->
  playoff_from_control to_num en event_code config = Good tc <-> playoff_described to_num en event_code config tc.
Proof. exact playoff_spec. Qed.
Print Assumptions C53_playoff.
Theorem C53_playoff_usable :
  forall to_num en event_code config tc, playoff_described to_num en event_code config tc ->
  config_ok (config_of tc) /\ matchups_of tc <> [] /\
  forall m, In m (matchups_of tc) -> m_player_1 m <> m_player_2 m /\ playable (m_settings m).
Proof. exact playoff_usable. Qed.
Print Assumptions C53_playoff_usable.
Example C53_demo :
  exists tc, playoff_from_control demo_num demo_en (str "t") demo_playoff = Good tc /\
    tc_description tc = Some (str "a playoff") /\ map fst (tc_players tc) = [str "alpha"; str "gnugo"; str "gnugo#2"] /\
    tc_matchups tc = [
      (mkM (str "0") (str "gnugo") (str "alpha") true (Some 10) (mkSet 9 (75, 1%nat) None false 1000 false CompFull), str "gnugo v alpha", str "t");
      (mkM (str "self") (str "gnugo") (str "gnugo#2") false None (mkSet 9 (0, 1%nat) (Some 4) false 1000 false CompFull), str "Self", str "t (Self)")].
Proof. eexists. split; [vm_compute; reflexivity|]. vm_compute. repeat split. Qed.
Example C53_demo_described : exists tc, playoff_described demo_num demo_en (str "t") demo_playoff tc.
Proof.
  destruct C53_demo as (tc & H & _). exists tc. apply C53_playoff; [exact (proj1 demo_playoff_proper)|exact (proj2 demo_playoff_proper)|exact H].
Qed.

(** ** C54: all-play-alls *)
Theorem C54_allplayall :
  forall to_num en event_code config tc, proper_players config -> proper_competitors config ->
  allplayall_from_control to_num en event_code config = Good tc <-> allplayall_described to_num en event_code config tc.
Proof. exact allplayall_spec. Qed.
Print Assumptions C54_allplayall.
Theorem C54_allplayall_usable :
  forall to_num en event_code config tc, allplayall_described to_num en event_code config tc ->
  exists competitors s rounds, tc_competitors tc = Some competitors /\ allplayall_config (dkeys (tc_players tc)) competitors rounds s = Ok (config_of tc).
Proof. exact allplayall_usable. Qed.
Print Assumptions C54_allplayall_usable.
Theorem C54_allplayall_playable :
  forall to_num en event_code config tc, allplayall_described to_num en event_code config tc ->
  exists s, s_handicap s = None /\ playable s /\ forall m, In m (matchups_of tc) -> m_settings m = s.
Proof. exact allplayall_playable. Qed.
Print Assumptions C54_allplayall_playable.
Example C54_demo :
  exists tc, allplayall_from_control demo_num demo_en (str "t") demo_allplayall = Good tc /\ tc_competitors tc = Some [str "gnugo"; str "alpha"] /\
    tc_matchups tc = [(mkM (str "AvB") (str "gnugo") (str "alpha") true (Some 3) (mkSet 9 (75, 1%nat) None false 1000 true CompFull), str "gnugo v alpha", str "t")].
Proof. eexists. split; [vm_compute; reflexivity|]. vm_compute. repeat split. Qed.
Example C54_demo_described : exists tc, allplayall_described demo_num demo_en (str "t") demo_allplayall tc.
Proof.
  destruct C54_demo as (tc & H & _). exists tc. apply C54_allplayall; [exact (proj1 demo_allplayall_proper)|exact (proj2 demo_allplayall_proper)|exact H].
Qed.

(** ** C55: tuners *)
Theorem C55_cem :
  forall V (apply : nat -> pyfloat -> option V) formats to_num en config c, proper_players config -> proper_parameters config ->
  cem_from_control to_num apply formats en config = Good c <-> cem_described apply formats to_num en config c.
Proof. exact (fun V apply formats to_num => cem_spec apply formats to_num). Qed.
Print Assumptions C55_cem.
Theorem C55_mcts :
  forall V (apply : nat -> pyfloat -> option V) formats to_num en config c, proper_players config -> proper_parameters config ->
  mcts_from_control to_num apply formats en config = Good c <-> mcts_described apply formats to_num en config c.
Proof. exact (fun V apply formats to_num => mcts_spec apply formats to_num). Qed.
Print Assumptions C55_mcts.
Theorem C55_candidate :
  forall V (make : nat -> list V -> option pyval) en maker code l p, proper_candidates make maker ->
  make_candidate make en maker code l = Some p <-> candidate_described make en maker code l p.
Proof. exact (fun V make => candidate_spec make). Qed.
Print Assumptions C55_candidate.
Theorem C55_cem_usable :
  forall V (apply : nat -> pyfloat -> option V) make formats to_num en gauss coin config c, proper_players config -> proper_parameters config ->
  cem_from_control to_num apply formats en config = Good c ->
  Forall (fun p => finite_number (cp_mean p) /\ finite_number (cp_variance p)) (ce_parameters c) ->
  (forall p q, In p (ce_parameters c) -> apply (cp_transform p) (FNum q) <> None) ->
  (forall l, exists p, make_candidate make en (ce_maker c) [] l = Some p) ->
  exists cf, cem_config apply make en gauss coin c = Some cf /\ CemSpec.cusable cf.
Proof. exact (fun V apply make formats to_num => cem_usable apply formats to_num make). Qed.
Print Assumptions C55_cem_usable.
Theorem C55_mcts_usable :
  forall V (apply : nat -> pyfloat -> option V) make formats to_num en random config c, proper_players config -> proper_parameters config ->
  mcts_from_control to_num apply formats en config = Good c ->
  (forall p q, In p (mt_parameters c) -> apply (mp_scale p) (FNum q) <> None) ->
  (forall l, exists p, make_candidate make en (mt_maker c) [] l = Some p) ->
  exists cf, mcts_config apply make en random c = Some cf /\ MctsSpec.usable cf.
Proof. exact (fun V apply make formats to_num => mcts_usable apply formats to_num make). Qed.
Print Assumptions C55_mcts_usable.

Definition demo_apply (n : nat) (f : pyfloat) : option Q := match f with FNum q => Some (if (n =? 0)%nat then q else q + 1)%Q | _ => None end.
Definition demo_make (n : nat) (l : list Q) : option pyval := Some (VConfig (str "Player") [VList [vs "engine"; vs "-p"]] []).
Definition demo_formats (f : bytes) (q : Q) : bool := negb (bytes_eqb f (str "%q")).
Definition demo_cem : dict pyval := demo_base ++ [
  (str "candidate_colour", vs "black"); (str "opponent", vs "alpha"); (str "make_candidate", VFun 3);
  (str "batch_size", VInt 10); (str "samples_per_generation", VInt 20); (str "number_of_generations", VInt 5);
  (str "elite_proportion", VFloat (FNum (1 # 10))); (str "step_size", VFloat (FNum (8 # 10)));
  (str "parameters", VList [
     VConfig (str "Parameter") [vs "p1"] [(str "initial_mean", VInt 0); (str "initial_variance", VFloat (FNum 1)); (str "format", vs "I: %4.2f")];
     VConfig (str "Parameter") [vs "p2"] [(str "initial_mean", VFloat (FNum (1 # 2))); (str "initial_variance", VInt 0); (str "transform", VFun 1)]])].
Definition demo_mcts : dict pyval := demo_base ++ [
  (str "candidate_colour", vs "random"); (str "opponent", vs "alpha"); (str "make_candidate", VFun 3);
  (str "exploration_coefficient", VFloat (FNum (1 # 5))); (str "initial_visits", VInt 10); (str "initial_wins", VInt 5); (str "max_depth", VInt 2);
  (str "parameters", VList [VConfig (str "Parameter") [vs "p1"] [(str "scale", VFun 1); (str "split", VInt 8)]])].
Lemma demo_cem_proper : proper_players demo_cem /\ proper_parameters demo_cem.
Proof.
  split; [apply demo_players_proper; intros v; apply given_here; [reflexivity|discriminate]|]. intros v l G E.
  eapply given_here in G; [|cbv; reflexivity|discriminate]. subst v. inversion E as [l' EL| | |]. apply Forall_cons; [call_tac|]. apply Forall_cons; [call_tac|constructor].
Qed.
Lemma demo_mcts_proper : proper_players demo_mcts /\ proper_parameters demo_mcts.
Proof.
  split; [apply demo_players_proper; intros v; apply given_here; [reflexivity|discriminate]|]. intros v l G E.
  eapply given_here in G; [|cbv; reflexivity|discriminate]. subst v. inversion E as [l' EL| | |]. apply Forall_cons; [call_tac|constructor].
Qed.
Example C55_demo_cem :
  exists c, cem_from_control demo_num demo_apply demo_formats demo_en demo_cem = Good c /\ ce_colour c = Some Black /\ ce_opponent c = str "alpha" /\ ce_batch_size c = 10 /\
    ce_parameters c = [mkCP (str "p1") (FNum 0) (FNum 1) 0 (str "I: %4.2f"); mkCP (str "p2") (FNum (1 # 2)) (FNum 0) 1 (str "p2:%s")].
Proof. eexists. split; [vm_compute; reflexivity|]. vm_compute. repeat split. Qed.
Example C55_demo_cem_usable : exists c cf, cem_from_control demo_num demo_apply demo_formats demo_en demo_cem = Good c /\
  cem_config demo_apply demo_make demo_en (fun _ m _ => m) (fun _ => true) c = Some cf /\ CemSpec.cusable cf.
Proof.
  destruct C55_demo_cem as (c & H & _ & _ & _ & P). exists c. destruct (C55_cem_usable _ demo_apply demo_make demo_formats demo_num demo_en (fun _ m _ => m) (fun _ => true) demo_cem c) as (cf & E & U); eauto.
  - exact (proj1 demo_cem_proper).
  - exact (proj2 demo_cem_proper).
  - rewrite P. apply Forall_cons; [split; eexists; reflexivity|]. apply Forall_cons; [split; eexists; reflexivity|constructor].
  - intros p q _. discriminate.
  - intros l. eexists. vm_compute. reflexivity.
Qed.
Example C55_demo_mcts :
  exists c, mcts_from_control demo_num demo_apply demo_formats demo_en demo_mcts = Good c /\ mt_colour c = None /\ mt_max_depth c = 2 /\ mt_summary c = [30] /\
    mt_parameters c = [mkMP (str "p1") 1 8 (str "p1:%s")].
Proof. eexists. split; [vm_compute; reflexivity|]. vm_compute. repeat split. Qed.
Example C55_demo_mcts_usable : exists c cf, mcts_from_control demo_num demo_apply demo_formats demo_en demo_mcts = Good c /\
  mcts_config demo_apply demo_make demo_en (fun n => n) c = Some cf /\ MctsSpec.usable cf.
Proof.
  destruct C55_demo_mcts as (c & H & _). exists c. destruct (C55_mcts_usable _ demo_apply demo_make demo_formats demo_num demo_en (fun n => n) demo_mcts c) as (cf & E & U); eauto.
  - exact (proj1 demo_mcts_proper).
  - exact (proj2 demo_mcts_proper).
  - intros p q _. discriminate.
  - intros l. eexists. vm_compute. reflexivity.
Qed.
Example C55_demo_errors :
  mcts_from_control demo_num demo_apply demo_formats demo_en ((str "komi", VInt 7) :: demo_mcts) = Bad (SControl (str "komi: must be fractional to prevent jigos")) /\
  mcts_from_control demo_num demo_apply demo_formats demo_en ((str "komi", VFloat (FInf false)) :: demo_mcts) = Bad (SOther OverflowError) /\
  cem_from_control demo_num demo_apply demo_formats demo_en ((str "elite_proportion", VFloat (FNum 1)) :: demo_cem) = Bad (SControl (str "elite_proportion out of range (0.0 to 1.0)")).
Proof. vm_compute. repeat split. Qed.

(** ** C56: startup checks *)
Theorem C56_playoff_checks :
  forall to_num en event_code config tc, playoff_described to_num en event_code config tc -> exists l, playoff_checks tc = Good l /\ playoff_checks_are tc l.
Proof. exact playoff_checks_spec. Qed.
Print Assumptions C56_playoff_checks.
Theorem C56_allplayall_checks :
  forall to_num en event_code config tc, allplayall_described to_num en event_code config tc ->
  (matchups_of tc <> [] -> exists l, allplayall_checks tc = Good l /\ allplayall_checks_are tc l) /\
  (matchups_of tc = [] -> allplayall_checks tc = Bad (SOther IndexError)).
Proof. exact allplayall_checks_spec. Qed.
Print Assumptions C56_allplayall_checks.
Example C56_demo :
  exists tc l, playoff_from_control demo_num demo_en (str "t") demo_playoff = Good tc /\ playoff_checks tc = Good l /\
    map (fun c => (p_code (fst (fst c)), snd (fst c), snd c)) l = [(str "alpha", 9, (75, 1%nat)); (str "gnugo", 9, (75, 1%nat)); (str "gnugo#2", 9, (0, 1%nat))].
Proof. eexists. eexists. split; [vm_compute; reflexivity|]. split; [vm_compute; reflexivity|]. vm_compute. reflexivity. Qed.
