(** Property theorems for the records of GTP games (C60: gomill/gtp_games.py describe_scoring and
    make_sgf; C61: the SGF files of gomill/game_jobs.py). *)
From Coq Require Import QArith.
From Verif Require Import ControllerModel ControllerSpec GtpGameModel GtpGameProps.
From Verif Require Import Base Bytes PyStr Dict BoardModel BoardSpec CommonModel SgfGrammarModel SgfGrammarSpec
  SgfPropsModel SgfPropsSpec SgfValueSpec SgfTreeModel SgfTreeSpec SgfMovesModel GameplayModel GameplaySpec
  EngineModel EngineSpec GameSgfModel GameSgfSpec GameSgfProofs
  GameSgfDocProofs GameSgfReadProofs GameSgfMainProofs JobSgfModel JobSgfSpec JobSgfProofs JobSgfMainProofs JobPlayedProofs JobReadProofs.
Open Scope Z_scope.

(** ** C60 *)

(** One line about a result says who beat whom, how, and the detail if there is one. *)
Theorem C60_result_line : forall r, describe r = result_line r.
Proof. exact describe_line. Qed.
Print Assumptions C60_result_line.

(** The description of the scoring starts with that line; the scores the players reported follow
    only if there is a game score and at least one of them reported something else than the result. *)
Theorem C60_scoring_text :
  forall r scores, exists l, extra_lines r scores l /\ describe_scoring r scores = lines (result_line r :: l).
Proof. exact scoring_proof. Qed.
Print Assumptions C60_scoring_text.

(** The record of a GTP game, in whatever state it is. *)
Theorem C60_record :
  forall (X : Type) version today engines (g : gtp_game X) w, gtp_recordable version today engines g -> reachable_world w ->
  exists w' nodes, gtp_make_sgf version today engines g w = (w', Ok tt) /\ reachable_world w' /\ undisturbed w w' /\
    displays (gtp_document version today engines g) w' (List.length (w_games w)) (new_sgf (ru_size (ga_runner g)) w) nodes.
Proof. intros X version today engines. exact (@gtp_record_proof version today engines X). Qed.
Print Assumptions C60_record.

(** A game run with any two engines, to whatever end: if the texts that come unchanged from the
    engines (the reason of a forfeit, the scores) are UTF-8, the record can be made, whatever else
    the engines said; it names the winner, and read back it is the legal game that was played. *)
Theorem C60_played_game :
  forall (X : Type) (ch : colour -> channel X) more pick fuel (g g' : gtp_game X) out size limit stones version today engines w,
  2 <= size <= 25 -> ready (ga_runner g) size limit stones -> (forall p, In p (stones_list stones) -> on_board size p) ->
  Z.of_nat (List.length (stones_list stones)) < size * size -> komi_ok (ru_komi (ga_runner g)) -> ga_result g = None ->
  run_gtp_game ch (sanitise_utf8 more) pick None fuel g = (g', out) ->
  (forall c, exists n v d, new_engine (sanitise_utf8 more) n v d = Ok (engines c)) ->
  all_utf8 [version; today; g_code_b (gb_gc (ga_backend g)); g_code_w (gb_gc (ga_backend g))] -> maybe_utf8 (ga_id g) ->
  all_utf8 (raw_texts g') -> reachable_world w ->
  exists w' nodes, gtp_make_sgf version today engines g' w = (w', Ok tt) /\ reachable_world w' /\ undisturbed w w' /\
    let sg := new_sgf size w in
    displays (gtp_document version today engines g') w' (List.length (w_games w)) sg nodes /\
    get_winner w' sg = Ok (winner_of (ga_runner g')) /\
    exists b pos, get_setup_and_moves pick w' sg None = (Some b, Ok (moves_only (ru_moves (ga_runner g')))) /\
      starting_position size stones pos /\ same_on size (view b) pos /\
      record_is_legal size limit pos (first_player stones) (ru_moves (ga_runner g')).
Proof.
  intros X ch more pick fuel g g' out size limit stones version today engines w S25 Rd OB FP KO NR RUN EN TX ID RW R.
  pose proof (played_gtp_recordable ch more pick fuel g g' out size limit stones S25 Rd OB KO NR RUN version today engines EN TX ID RW) as RG.
  destruct (gtp_record_proof version today engines g' w RG R) as (w' & nodes & E & R' & U & D).
  destruct (gtp_run_facts ch more pick fuel g g' out NR (ready_commented g size limit stones Rd) RUN) as (_ & _ & _ & (s1 & o & Rn) & _).
  destruct (run_facts _ pick fuel _ _ _ _ o size limit stones S25 Rd OB Rn) as (A1 & _).
  destruct (played_read_proof ch more pick fuel g g' out size limit stones S25 Rd OB FP NR RUN version today _ _ _ _ _ R' D
              (new_sgf_pres _ _) eq_refl (gtp_plays version today engines g')) as (PM & PW).
  rewrite A1 in *. exists w', nodes. split; [exact E|]. split; [exact R'|]. split; [exact U|]. cbv zeta. split; [exact D|].
  split; [|exact PM]. apply PW. destruct (gtp_props version today engines g') as (A & _). apply A; discriminate.
Qed.
Print Assumptions C60_played_game.

(** ** C61 *)

(** The annotated record of a game (finished or broken off). *)
Theorem C61_record :
  forall (X : Type) version today engines cpu_text now j (g : gtp_game X) message w,
  job_recordable version today engines cpu_text now j g message -> reachable_world w ->
  exists w' nodes, job_make_sgf version today engines cpu_text now j g message w = (w', Ok tt) /\ reachable_world w' /\ undisturbed w w' /\
    displays (job_document version today engines cpu_text now j g message) w' (List.length (w_games w)) (new_sgf (ru_size (ga_runner g)) w) nodes.
Proof. intros X version today engines cpu_text now. exact (@job_record_proof version today engines cpu_text now X). Qed.
Print Assumptions C61_record.

(** What the annotations leave alone: everything but the names of the players, of the game and of
    the event is as the game itself says; and the players are named as asked. *)
Theorem C61_properties :
  forall (X : Type) version today engines cpu_text now j (g : gtp_game X) message,
  let d := job_document version today engines cpu_text now j g message in
  (forall k, ~ In k [str "PB"; str "PW"; str "GN"; str "EV"] ->
     dget k (ct_props (fst d)) = dget k (ct_props (the_root version today (ga_runner g)))) /\
  dget (str "PB") (ct_props (fst d)) =
    Some (PT_simpletext, VText (if gp_name_from_gtp (gj_b j) then called (g_code_b (gb_gc (ga_backend g))) (engines Black) else gp_code (gj_b j))) /\
  dget (str "PW") (ct_props (fst d)) =
    Some (PT_simpletext, VText (if gp_name_from_gtp (gj_w j) then called (g_code_w (gb_gc (ga_backend g))) (engines White) else gp_code (gj_w j))) /\
  map ct_props (snd d) = map ct_props (map the_move (ru_moves (ga_runner g))) /\
  plays d (stones_list (ru_stones (ga_runner g))) (moves_only (ru_moves (ga_runner g))).
Proof.
  intros X version today engines cpu_text now j g message d.
  destruct (job_props version today engines cpu_text now j g message) as (A & B & C & D).
  split; [|split; [exact B|split; [exact C|split; [exact D|apply job_plays]]]].
  intros k N. apply A; intros ->; apply N; cbn; tauto.
Qed.
Print Assumptions C61_properties.

(** The file of a finished game: written if there is a directory and a filename, at the joined
    path; whoever loads it sees the document.  Otherwise nothing is written. *)
Theorem C61_finished_file :
  forall (X : Type) version today engines cpu_text now j (g : gtp_game X) w,
  match gj_dirname j, gj_filename j with
  | Some dir, Some file =>
      job_recordable version today engines cpu_text now j g None -> reachable_world w ->
      exists w' text, record_finished version today engines cpu_text now j g w = (w', Ok (Some (os_join dir file, text))) /\
        reachable_world w' /\ undisturbed w w' /\
        forall w0, reachable_world w0 -> exists w1 g' nodes, load_string w0 text UTF_8 false = (w1, Ok tt) /\
          g_size g' = ru_size (ga_runner g) /\ undisturbed w0 w1 /\
          reachable_world w1 /\ g_pres g' = new_presenter (g_size g') UTF_8 /\
          displays (job_document version today engines cpu_text now j g None) w1 (List.length (w_games w0)) g' nodes
  | _, _ => record_finished version today engines cpu_text now j g w = (w, Ok None)
  end.
Proof.
  intros X version today engines cpu_text now j g w. unfold record_finished at 2 3.
  destruct (gj_dirname j) as [dir|] eqn:Ed; [|reflexivity]. destruct (gj_filename j) as [file|] eqn:Ef; [|reflexivity].
  intros JR R. exact (finished_proof version today engines cpu_text now j g w dir file JR R Ed Ef).
Qed.
Print Assumptions C61_finished_file.

(** The file of a game that was broken off: written only if there were any moves. *)
Theorem C61_void_file :
  forall (X : Type) version today engines cpu_text now j (g : gtp_game X) message w,
  (ru_moves (ga_runner g) = [] \/ gj_void_dirname j = None \/ gj_filename j = None ->
     record_void version today engines cpu_text now j g message w = (w, Ok None)) /\
  forall dir file, ru_moves (ga_runner g) <> [] -> gj_void_dirname j = Some dir -> gj_filename j = Some file ->
     job_recordable version today engines cpu_text now j g (Some message) -> reachable_world w ->
     exists w' text, record_void version today engines cpu_text now j g message w = (w', Ok (Some (os_join dir file, text))) /\
       reachable_world w' /\ undisturbed w w' /\
       forall w0, reachable_world w0 -> exists w1 g' nodes, load_string w0 text UTF_8 false = (w1, Ok tt) /\
         g_size g' = ru_size (ga_runner g) /\ undisturbed w0 w1 /\
         reachable_world w1 /\ g_pres g' = new_presenter (g_size g') UTF_8 /\
         displays (void_document version today engines cpu_text now j g message) w1 (List.length (w_games w0)) g' nodes /\
         get_winner w1 g' = Ok None.
Proof.
  intros X version today engines cpu_text now j g message w. split.
  - unfold record_void. intros [->|[->| ->]]; [reflexivity|destruct (ru_moves _); reflexivity|].
    destruct (ru_moves _); [reflexivity|]. destruct (gj_void_dirname j); reflexivity.
  - intros dir file NE Ed Ef JR R.
    destruct (void_file_proof version today engines cpu_text now j g message w dir file JR R NE Ed Ef) as (w' & text & E & R' & U & L).
    exists w', text. split; [exact E|]. split; [exact R'|]. split; [exact U|]. intros w0 R0.
    destruct (L w0 R0) as (w1 & g' & nodes & A1 & A2 & A3 & A4 & A5 & D). exists w1, g', nodes. repeat (split; [assumption|]).
    exact (winner_proof _ w1 _ g' nodes (Some (str "Void")) D eq_refl).
Qed.
Print Assumptions C61_void_file.

(** Any game run with any two engines, as in [C60_played_game]: the file of the finished game
    names the winner of the game and holds the moves that were made. *)
Theorem C61_played_game :
  forall (X : Type) (ch : colour -> channel X) more pick fuel (g g' : gtp_game X) out size limit stones version today engines
    cpu_text now j dir file w w0,
  2 <= size <= 25 -> ready (ga_runner g) size limit stones -> (forall p, In p (stones_list stones) -> on_board size p) ->
  Z.of_nat (List.length (stones_list stones)) < size * size -> komi_ok (ru_komi (ga_runner g)) -> ga_result g = None ->
  run_gtp_game ch (sanitise_utf8 more) pick None fuel g = (g', out) ->
  (forall c, exists n v d, new_engine (sanitise_utf8 more) n v d = Ok (engines c)) ->
  all_utf8 [version; today; g_code_b (gb_gc (ga_backend g)); g_code_w (gb_gc (ga_backend g))] -> maybe_utf8 (ga_id g) ->
  all_utf8 (raw_texts g') ->
  all_utf8 [now; gj_id j; gp_code (gj_b j); gp_code (gj_w j)] ->
  maybe_utf8 (gj_name j) -> maybe_utf8 (gj_event j) -> maybe_utf8 (gj_note j) ->
  (forall x, is_utf8 (cpu_text x)) -> maybe_utf8 (describe_late_errors (gb_gc (ga_backend g'))) ->
  gj_dirname j = Some dir -> gj_filename j = Some file -> reachable_world w -> reachable_world w0 ->
  exists w' text w1 sg nodes,
    record_finished version today engines cpu_text now j g' w = (w', Ok (Some (os_join dir file, text))) /\
    load_string w0 text UTF_8 false = (w1, Ok tt) /\
    displays (job_document version today engines cpu_text now j g' None) w1 (List.length (w_games w0)) sg nodes /\
    get_winner w1 sg = Ok (winner_of (ga_runner g')) /\
    exists b pos, get_setup_and_moves pick w1 sg None = (Some b, Ok (moves_only (ru_moves (ga_runner g')))) /\
      starting_position size stones pos /\ same_on size (view b) pos /\
      record_is_legal size limit pos (first_player stones) (ru_moves (ga_runner g')).
Proof.
  intros X ch more pick fuel g g' out size limit stones version today engines cpu_text now j dir file w w0
    S25 Rd OB FP KO NR RUN EN TX ID RW T N E O U L Ed Ef R R0.
  pose proof (played_job_recordable ch more pick fuel g g' out size limit stones S25 Rd OB KO NR RUN version today engines EN TX ID RW
                cpu_text now j None T N E O U ltac:(intros s H; discriminate) L) as JR.
  destruct (finished_proof version today engines cpu_text now j g' w dir file JR R Ed Ef) as (w' & text & W & R' & UD & Lo).
  destruct (Lo w0 R0) as (w1 & sg & nodes & L1 & L2 & L3 & L4 & L5 & D).
  destruct (played_read_proof ch more pick fuel g g' out size limit stones S25 Rd OB FP NR RUN version today _ _ _ _ _ L4 D
              L5 L2 (job_plays version today engines cpu_text now j g' None)) as (PM & PW).
  exists w', text, w1, sg, nodes. split; [exact W|]. split; [exact L1|]. split; [exact D|]. split; [|exact PM].
  apply PW. destruct (job_props version today engines cpu_text now j g' None) as (A & _). apply A; discriminate.
Qed.
Print Assumptions C61_played_game.

(** Joining a directory and a filename. *)
Theorem C61_path :
  forall dir file, (forall x, file <> str "/" ++ x) ->
  os_join dir file = if bytes_eqb dir [] then file else if ceqb (last dir "a"%char) "/"%char then dir ++ file else dir ++ str "/" ++ file.
Proof.
  intros dir file N. unfold os_join. destruct (exists_last_or dir) as [->|(l & c & ->)].
  - destruct file as [|c f]; [reflexivity|]. cbn. destruct (ceqb_spec c "/"%char) as [->|NE]; [exfalso; exact (N f eq_refl)|].
    destruct c as [[] [] [] [] [] [] [] []]; try reflexivity; congruence.
  - assert (last (l ++ [c]) "a"%char = c) as -> by (rewrite last_last; reflexivity).
    assert (bytes_eqb (l ++ [c]) [] = false) as -> by (destruct (bytes_eqb_spec (l ++ [c]) []) as [H|]; [destruct l; discriminate|reflexivity]).
    rewrite rev_app_distr. cbn [rev app].
    destruct file as [|d f]; [reflexivity|]. destruct (ceqb_spec d "/"%char) as [->|NE]; [exfalso; exact (N f eq_refl)|].
    destruct d as [[] [] [] [] [] [] [] []]; try reflexivity; congruence.
Qed.
Print Assumptions C61_path.

(** ** Examples *)

Open Scope string_scope.
(** A game that two engines play: each has a name; they disagree about the margin. *)
Definition chatty (c : colour) : engine :=
  match new_engine (sanitise_utf8 (fun _ => O)) (Some (str "GNU Go")) (Some (str "3.8"))
          (match c with Black => Some (str "plays well") | White => None end) with Ok e => e | Err _ => mkEngine None None None None None None end.
Definition sgf_demo : gtp_game ((bytes * nat) * list cevent) * res unit :=
  run_gtp_game (fun c => recorded (two_engines
      [("known_command", (false, "true")); ("gomill-genmove_ex", (false, "pass")); ("genmove", (false, "pass")); ("final_score", (false, "b+1.0"));
       ("play", (false, "")); ("gomill-cpu_time", (false, "12.5")); ("gomill-explain_last_move", (false, "nothing to do"))]
      [("known_command", (false, "true")); ("gomill-genmove_ex", (false, "pass")); ("genmove", (false, "PASS")); ("play", (false, "")); ("final_score", (false, "B+2.5"))] c))
    (sanitise_utf8 (fun _ => O)) (fun _ => O) None 20 (demo_game 9 None).
Definition demo_player (code : string) (from_gtp : bool) : gplayer := mkPlayer (str code) true false [] [] from_gtp [str code] None None.
Definition demo_job : game_job :=
  mkGameJob (str "g1") (demo_player "one" true) (demo_player "two" false) 9 (75, 1%nat) (str "7.5") 1000 None false false CompNo
    (Some (str "g1.sgf")) (Some (str "/games")) (Some (str "/void/")) (Some (str "first")) (Some (str "demo cup")) (Some (str "a note")).
Definition sgf_file (o : world * res written) : bytes :=
  match snd o with Ok (Some (p, t)) => (p ++ str ": " ++ t)%list | Ok None => str "none" | Err _ => str "error" end.
Definition demo_texts (l : list string) : bytes := lines (map str l).

(** The hypotheses of [C61_played_game] (and [C60_played_game]) for this game. *)
Example C61_demo_hypotheses :
  ready (ga_runner (demo_game 9 None)) 9 None None /\ komi_ok (ru_komi (ga_runner (demo_game 9 None))) /\
  ga_result (demo_game 9 None) = None /\ snd sgf_demo = Ok tt /\ List.length (ru_moves (ga_runner (fst sgf_demo))) = 2%nat /\
  (forall c, exists n v d, new_engine (sanitise_utf8 (fun _ => O)) n v d = Ok (chatty c)) /\
  raw_texts (fst sgf_demo) = [str "b+1.0"; str "B+2.5"] /\ all_utf8 (raw_texts (fst sgf_demo)) /\
  describe_late_errors (gb_gc (ga_backend (fst sgf_demo))) = None.
Proof.
  split; [unfold ready; cbn; auto 10|]. split; [split; [reflexivity|right; discriminate]|]. split; [reflexivity|].
  split; [vm_compute; reflexivity|]. split; [vm_compute; reflexivity|].
  split; [intros c; exists (Some (str "GNU Go")), (Some (str "3.8")), (match c with Black => Some (str "plays well") | White => None end); destruct c; reflexivity|].
  assert (raw_texts (fst sgf_demo) = [str "b+1.0"; str "B+2.5"]) as E by (vm_compute; reflexivity).
  split; [exact E|]. split; [|vm_compute; reflexivity].
  rewrite E. intros s [<-|[<-|[]]]; apply ascii_utf8; reflexivity.
Qed.
Definition demo_finished : world * res written :=
  record_finished (str "0.8") (str "2012-01-02") chatty (fun _ => str "12.50") (str "2012-01-02 03:04") demo_job (fst sgf_demo) (mkW [] []).
Example C61_demo_file :
  sgf_file demo_finished = demo_texts [
    "/games/g1.sgf: (;FF[4]AP[gomill:0.8]"; "C[Event: demo cup"; "Game id g1"; "Date 2012-01-02 03:04";
    "Result one beat two B+ (unknown margin)"; "a note"; "one cpu time: 12.50s"; "Black one plays well"; "White two GNU Go:3.8]";
    "CA[UTF-8]DT[2012-01-02]EV[demo cup]GM[1]GN[first]KM[7.5]PB[GNU Go:3.8]PW[two]"; "RE[B+]SZ[9];B[tt]C[nothing to do];";
    "C[one beat two B+ (unknown margin)"; "one final_score: b+1.0"; "two final_score: B+2.5]"; "W[tt])"; ""].
Proof. vm_compute. reflexivity. Qed.
Example C61_demo_void :
  sgf_file (record_void (str "0.8") (str "2012-01-02") chatty (fun _ => str "12.50") (str "2012-01-02 03:04") demo_job (fst sgf_demo) (str "oops") (mkW [] [])) =
  demo_texts [
    "/void/g1.sgf: (;FF[4]AP[gomill:0.8]"; "C[Event: demo cup"; "Game id g1"; "Date 2012-01-02 03:04";
    "Result one beat two B+ (unknown margin)"; "a note"; "one cpu time: 12.50s"; "Black one plays well"; "White two GNU Go:3.8]";
    "CA[UTF-8]DT[2012-01-02]EV[demo cup]GM[1]GN[first]KM[7.5]PB[GNU Go:3.8]PW[two]"; "RE[Void]SZ[9];B[tt]C[nothing to do];";
    "C[one beat two B+ (unknown margin)"; "one final_score: b+1.0"; "two final_score: B+2.5"; ""; "oops]"; "W[tt])"; ""].
Proof. vm_compute. reflexivity. Qed.

(** FINDING.  The reason of a forfeit and the scores come unchanged from the engines.  If the engine
    that is to move first rejects its first [genmove] with a message that is not UTF-8, the game is
    over (a forfeit), but its record cannot be made: [ValueError] comes out of [_make_sgf], and so
    the result of the game is lost. *)
Definition hostile : colour -> channel ((bytes * nat) * list cevent) := fun _ =>
  recorded (mkChannel (bytes * nat)
    (fun x cmd args => ((cmd, snd x), None))
    (fun x => (([], Datatypes.S (snd x)), inl (if bytes_eqb (fst x) (str "genmove") then (true, ["255"%char]) else (false, str ""))))
    (fun x => (x, None))).
Definition hostile_game := run_gtp_game hostile (sanitise_utf8 (fun _ => O)) (fun _ => O) None 20 (demo_game 9 None).
Example C61_finding_unreadable_forfeit :
  snd hostile_game = Ok tt /\ option_map gr_winner (ga_result (fst hostile_game)) = Some (Some (str "two")) /\
  snd (gtp_make_sgf (str "0.8") (str "2012-01-02") chatty (fst hostile_game) (mkW [] [])) = Ok tt /\
  snd (record_finished (str "0.8") (str "2012-01-02") chatty (fun _ => str "12.50") (str "2012-01-02 03:04") demo_job (fst hostile_game) (mkW [] [])) =
    Err ValueError.
Proof. vm_compute. repeat split; reflexivity. Qed.
