(** C81: the tournament results API, and find_forfeits.py. *)
From Verif Require Import Base Bytes PyStr Dict CommonModel GameplayModel TournModel TournSpec TournProofs ReportModel RingFilesModel CliModel CliSpec CliProofs
  ForfeitModel ForfeitSpec ForfeitProofs.
Open Scope Z_scope.

(** After any history of a tournament (see C25), whatever has been read from the results object
    before: it lists the matchups of the control file in order; for every id (also that of a matchup
    which is no longer in the control file) it gives the recorded results; it describes, and counts
    the results of, exactly the matchups of the control file. *)
Theorem C81_results es t sv os before : Forall event_ok es -> trun (None, None) es = ((Some t, sv), os) ->
  exists a y, atrun (None, None) es os (Some a, y) /\
  let x := fold_left (fun x id => fst (results_for x id)) before (tournament_results t) in
  let ms := cf_matchups (a_config a) in
  get_matchup_ids x = map m_id ms /\
  forall id, snd (results_for x id) = results_of id (a_done a) /\
    (forall m, get_matchup x id = Ok m <-> In m ms /\ m_id m = id) /\
    (~ In id (map m_id ms) -> get_matchup x id = Err KeyError /\ snd (get_matchup_stats x id) = Err KeyError) /\
    (forall m, dget id (get_matchups x) = Some m <-> In m ms /\ m_id m = id) /\
    (forall m, In m ms -> m_id m = id ->
       snd (get_matchup_stats x id) = Ok (matchup_stats (results_of id (a_done a)) (m_player_1 m) (m_player_2 m))).
Proof.
  intros OK E. destruct (sys_run es (None, None) (None, None) OK) as (y & A & B); [split; exact Logic.I|].
  rewrite E in A, B. cbn [fst snd] in A, B. destruct y as [[a|] y]; destruct B as [B _]; cbn [fst] in B; [|contradiction].
  exists a, y. split; [exact A|]. cbn zeta.
  destruct B as (CE & CO & (_ & _ & LK) & _).
  assert (same_answers (tournament_results t) (cf_matchups (a_config a)) (a_done a)) as SA0.
  { unfold tournament_results. rewrite CE. split; [reflexivity|]. split; [reflexivity|exact LK]. }
  assert (same_answers (fold_left (fun x id => fst (results_for x id)) before (tournament_results t)) (cf_matchups (a_config a)) (a_done a)) as SA.
  { revert SA0. generalize (tournament_results t). induction before as [|b before IH]; intros x0 S0; cbn [fold_left]; [exact S0|].
    apply IH. apply read_results_spec. exact S0. }
  revert SA. generalize (fold_left (fun x id => fst (results_for x id)) before (tournament_results t)). intros x SA.
  split; [unfold get_matchup_ids; rewrite (proj1 SA); reflexivity|]. intros id.
  destruct (read_results_spec x _ _ id SA) as [R _].
  pose proof (same_get_matchup x _ _ id SA) as G. rewrite G.
  assert (forall m, get_matchup (make_tresults (cf_matchups (a_config a)) []) id = Ok m <-> In m (cf_matchups (a_config a)) /\ m_id m = id) as GM
    by (intros m; apply get_matchup_spec; exact (proj1 CO)).
  split; [exact R|]. split; [exact GM|]. split; [|split].
  - intros N. pose proof (get_matchup_none _ [] id (proj1 CO) N) as X. split; [exact X|]. unfold get_matchup_stats. rewrite G, X. reflexivity.
  - intros m. unfold get_matchups. rewrite <- GM, <- G. unfold get_matchup. destruct (dget id (tr_matchups x)); split; congruence.
  - intros m I M. unfold get_matchup_stats. rewrite G, (proj2 (GM m) (conj I M)). rewrite <- R.
    destruct (read_results x id) as [x' l]. reflexivity.
Qed.
Print Assumptions C81_results.

(** find_forfeits.py, with the status file that any history of the tournament has left and with any
    control file [cf] that is read without an error: if the status fits the control file, it prints a
    line for each forfeited game that was recorded in a matchup of the control file -- by matchups in
    the order of the control file, then in the order of recording -- which names the matchup, the
    loser and the SGF file; otherwise it prints no such line, complains, and exits with status 1. *)
Theorem C81_find_forfeits es x st os cf given w decodes comp_vn brief traceback control :
  Forall event_ok es -> Forall proper_event es -> trun (None, None) es = ((x, Some st), os) ->
  config_ok cf -> control_reads w decodes control -> status_reads w comp_vn st -> loads w cf ->
  exists y s, atrun (None, None) es os (y, Some s) /\
  (fits cf s ->
     exists h, main (Some cf) given w decodes comp_vn brief traceback [control] = (h, 0) /\
       Forall2 (forfeit_line given) (forfeits (cf_matchups cf) (sv_done s)) (said h) /\ complaints h = []) /\
  (~ fits cf s ->
     exists h, main (Some cf) given w decodes comp_vn brief traceback [control] = (h, 1) /\ said h = [] /\ complaints h <> []).
Proof.
  intros OK PE E CO CR SR LO. destruct (sys_run es (None, None) (None, None) OK) as (y & A & B); [split; exact Logic.I|].
  rewrite E in A, B. cbn [fst snd] in A, B. destruct y as [y [s|]]; destruct B as [_ B]; cbn [snd] in B; [|contradiction].
  exists y, s. split; [exact A|]. destruct s as [done listed comps]. apply (main_spec cf given w decodes comp_vn brief traceback control st); try assumption.
  destruct (atrun_done proper_forfeit _ _ _ _ A) as [_ D]; [exact PE|split; exact Logic.I|]. exact D.
Qed.
Print Assumptions C81_find_forfeits.

(** In any circumstances (any errors, any kind of competition): it reads the control file and the
    status file and writes nothing; it prints lines only after both have been read; the exit status
    is 2 for a wrong number of arguments, 0 if all went well and nothing is written to standard error,
    1 otherwise. *)
Theorem C81_read_only competition given w decodes comp_vn brief traceback args :
  let '(h, code) := main competition given w decodes comp_vn brief traceback args in
  (code = 2 <-> List.length args <> 1%nat) /\ (code = 0 \/ code = 1 \/ code = 2) /\
  (code = 0 <-> complaints h = []) /\
  (exists v st, prefix (calls h) ([ReadControl; Interpret; InitRingmaster; InitCompetition] ++ [ReadStatus; SetStatus v st])) /\
  (code = 0 \/ said h <> [] -> exists v st, calls h = [ReadControl; Interpret; InitRingmaster; InitCompetition] ++ [ReadStatus; SetStatus v st]).
Proof. exact (main_any given w decodes comp_vn brief traceback competition args). Qed.
Print Assumptions C81_read_only.

(** A tuning event is refused. *)
Theorem C81_not_a_tournament given w decodes comp_vn brief traceback control st :
  control_reads w decodes control -> status_reads w comp_vn st -> (forall v h, w (SetStatus v st) h = Good tt) ->
  exists h, main None given w decodes comp_vn brief traceback [control] = (h, 1) /\ said h = [] /\
    complaints h = [str "ringmaster:" ++ [char_lf]; str "competition is not a tournament" ++ [char_lf]].
Proof.
  intros C SR LO. destruct (make_ringmaster_good w decodes brief traceback control C) as (h0 & skip & MR & S0 & C0).
  unfold main, find_forfeits, load_status, read_status, bind, catch, ask. rewrite MR.
  destruct (SR h0) as (void & RS). rewrite RS. rewrite Z.eqb_refl. cbn [negb sd_vn sd_void sd_comp]. rewrite Z.eqb_refl. cbn [negb].
  unfold ret. cbn [fst snd]. rewrite LO. unfold get_tournament_results, raise.
  eexists. split; [reflexivity|]. rewrite !said_app, !complaints_app, S0, C0. split; reflexivity.
Qed.
Print Assumptions C81_not_a_tournament.

(** The results of games are of the kind assumed: a forfeited game has a loser, and pickling keeps it. *)
Theorem C81_forfeits_of_games r id b w gr : r_forfeit r = true -> (exists c, r_winner r = Some c) ->
  make_game_result r (Some id) b w = Ok gr -> r_jigo r = false -> proper_forfeit gr.
Proof.
  intros F (c & W) E J _. unfold make_game_result in E. rewrite F, W in E.
  destruct (player_of b w (r_loser r)); [|discriminate]. cbn [bind] in E. injection E as <-.
  split; [exists b, w, c|exists id; reflexivity]. unfold result_between. cbn. rewrite J. destruct c; auto.
Qed.
Print Assumptions C81_forfeits_of_games.

(** ** Example: a tournament of two matchups (the second has a name), in which one game of each was
    forfeited; the game of the first is lost in a crash before it is saved. *)
Definition fx_set : settings := mkSet 9 (75, 1%nat) None false 1000 true CompNo.
Definition fx_cf : tconfig :=
  mkCf [str "a"; str "b"; str "c"] [mkM (str "0") (str "a") (str "b") true (Some 2) fx_set;
                                    mkM (str "x") (str "c") (str "a") false (Some 2) fx_set] None.
Definition fx_given (id : bytes) : option bytes := if bytes_eqb id (str "x") then Some (str "special") else None.
Definition fx_gr (b w : string) (c : colour) (f : bool) (id : string) : game_result :=
  mkGR (str b) (str w) (Some c) (winner_text (Some c) ++ str "F") (Some (str "illegal move")) f (Some (str id))
       (dset (str w) None (dset (str b) None [])) false (player_of (str b) (str w) (Some c)).
Definition fx_history : list tevent :=
  [TStart fx_cf; TGet; TGet; TGet; TGet;
   TResult (mkResp (str "x_0") (str "x", 0%nat) (fx_gr "c" "a" White false "x_0") []);
   TResult (mkResp (str "x_1") (str "x", 1%nat) (fx_gr "c" "a" White true "x_1") []);
   TResult (mkResp (str "0_1") (str "0", 1%nat) (fx_gr "b" "a" Black true "0_1") []);
   TSave;
   TResult (mkResp (str "0_0") (str "0", 0%nat) (fx_gr "a" "b" Black true "0_0") [])].
Definition fx_status : tstatus := match snd (fst (trun (None, None) fx_history)) with Some st => st | None => get_status (TournModel.set_clean_status fx_cf) end.
Definition fx_world : @world tstatus := fun c h =>
  match c as c0 return outcome (answer c0) with
  | ReadControl => Good (str "competition_type = 'playoff'")
  | Interpret => Good (Some (str "playoff"))
  | InitRingmaster | ControlExists | StatusExists => Good true
  | PlayerChecks | CheckPlayer _ _ => Good []
  | ReadStatus => Good (Pair 0 (mkStatus (Some 0) (Some 0) (Some fx_status)))
  | SetStatus v st => match set_status fx_cf st with Ok _ => Good tt | Err _ => Raise (XCompetition (str "?")) end
  | _ => Good tt
  end.
Example C81_example_run :
  let '(h, code) := main (Some fx_cf) fx_given fx_world (fun _ => true) 0 (fun _ => []) (fun _ => []) [str "t.ctl"] in
  (said h, code) = ([str "a v b: a forfeited game 0_1.sgf"; str "special: c forfeited game x_1.sgf"], 0).
Proof. vm_compute. reflexivity. Qed.
Example C81_example_hypotheses :
  Forall event_ok fx_history /\ Forall proper_event fx_history /\ config_ok fx_cf /\
  (exists t os, trun (None, None) fx_history = ((Some t, Some fx_status), os)) /\
  control_reads fx_world (fun _ => true) (str "t.ctl") /\ status_reads fx_world 0 fx_status /\ loads fx_world fx_cf.
Proof.
  assert (config_ok fx_cf) as C.
  { split; [constructor; [intros [X|[]]; discriminate X|constructor; [intros []|constructor]]|].
    intros m [H|[H|[]]]; subst m; vm_compute; auto. }
  split; [repeat (constructor; [first [exact C | exact Logic.I | vm_compute; reflexivity]|]); constructor|].
  split.
  { repeat (constructor; [first [exact Logic.I | discriminate | (intros _; split; [eexists _, _, _; repeat split|eexists; reflexivity])]|]). constructor. }
  split; [exact C|]. split; [|split; [|split]].
  { assert (match trun (None, None) fx_history with ((Some _, Some _), _) => true | _ => false end = true) as X by (vm_compute; reflexivity).
    unfold fx_status. destruct (trun (None, None) fx_history) as [[[t|] [st|]] os]; try discriminate. exists t, os. reflexivity. }
  - split; [reflexivity|]. intros h. exists (str "competition_type = 'playoff'"), (str "playoff"), Playoff, true.
    repeat split.
  - intros h. exists 0. reflexivity.
  - intros void st h. cbn [fx_world]. destruct (set_status fx_cf st); [reflexivity|eexists; reflexivity].
Qed.
Example C81_example_usage : map (fun args => snd (main None fx_given fx_world (fun _ => true) 0 (fun _ => []) (fun _ => []) args))
  [[]; [str "t.ctl"]; [str "t.ctl"; str "x"]; [str "t.sgf"]; [str "t.log"]] = [2; 1; 2; 1; 1].
Proof. vm_compute. reflexivity. Qed.
