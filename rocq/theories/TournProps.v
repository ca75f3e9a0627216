(** C25 - C27, C30: tournaments. *)
From Verif Require Import Base Bytes PyStr Dict CommonModel SchedModel GameplayModel GameplaySpec
  TournModel TournSpec TournProofs TournConfProofs.

(** C25.  Every history of a tournament -- games handed out, results and errors in any order
    and for any games, reports, saves, and restarts (losing everything since the last save)
    with control files that may have changed -- is a run of the machine of TournSpec.v, with
    the same answers.  The results the code reports are those of the machine; no game is
    recorded twice, or both recorded and handed out. *)
Theorem C25_tournament_bookkeeping es : Forall event_ok es ->
  exists y, atrun (None, None) es (snd (trun (None, None) es)) y /\
    match fst (fst (trun (None, None) es)), fst y with
    | Some t, Some a => (forall id, get_matchup_results t id = results_of id (a_done a)) /\
        NoDup (map fst (a_done a) ++ a_out a) /\ a_out a = outstanding [] es (snd (trun (None, None) es))
    | None, None => True
    | _, _ => False
    end.
Proof. exact (C25_no_game_twice_proof es). Qed.
Print Assumptions C25_tournament_bookkeeping.

(** When no game is left to hand out and none is outstanding, every matchup has (at least)
    its number of results: nothing is lost, whatever errors, crashes and restarts occurred. *)
Theorem C25_finished_means_complete es t sv os : Forall event_ok es -> trun (None, None) es = ((Some t, sv), os) ->
  snd (get_game t) = Ok None -> outstanding [] es os = [] ->
  forall m, In m (cf_matchups (t_config t)) ->
    exists l, m_games m = Some l /\ l <= Z.of_nat (List.length (get_matchup_results t (m_id m))).
Proof. exact (C25_finished_proof es t sv os). Qed.
Print Assumptions C25_finished_means_complete.

(** Asking for a game never fails. *)
Theorem C25_get_game_never_fails es t sv os e : Forall event_ok es -> trun (None, None) es = ((Some t, sv), os) ->
  snd (get_game t) <> Err e.
Proof. exact (C25_never_internal_error_proof es t sv os e). Qed.
Print Assumptions C25_get_game_never_fails.

(** The results that games give are unchanged by saving. *)
Theorem C25_results_survive_saving r id b w gr :
  (exists win m d, result_from_score win m d = Ok r) \/ (exists g, result_from_unscored g = Ok r) ->
  make_game_result r id b w = Ok gr -> pickles gr.
Proof. exact (C25_survives_proof r id b w gr). Qed.
Print Assumptions C25_results_survive_saving.

(** ** Examples *)
Definition ex_set : settings := mkSet 9 (75, 1%nat) None false 1000 true CompNo.
Definition ex_cf : tconfig :=
  mkCf [str "a"; str "b"; str "c"] [mkM (str "0") (str "a") (str "b") true (Some 2) ex_set;
                                    mkM (str "x") (str "c") (str "a") false (Some 1) ex_set] None.
Definition ex_gr (b w : bytes) (c : colour) : game_result :=
  mkGR b w (Some c) (winner_text (Some c) ++ str "3") None false None (dset w None (dset b None []))
       false (player_of b w (Some c)).
Definition ex_resp (id : bytes) (n : nat) (r : game_result) : response := mkResp id (str "0", n) r [].

(** Two games are handed out, the second finishes and is saved, the first finishes but is
    lost in a crash: it's handed out again, after a game of the other matchup. *)
Definition ex_history : list tevent :=
  [TStart ex_cf; TGet; TGet; TGet; TGet; TResult (ex_resp (str "0_1") 1 (ex_gr (str "b") (str "a") White)); TSave;
   TResult (ex_resp (str "0_0") 0 (ex_gr (str "a") (str "b") Black));
   TStart ex_cf; TGet; TGet; TGet].
Example C25_example_answers :
  map (fun o => match o with TJob j => j_id j | TNoGame => str "none" | TDone => str "ok" | _ => str "?" end)
      (snd (trun (None, None) ex_history)) =
  map str ["ok"; "0_0"; "x_0"; "0_1"; "none"; "ok"; "ok"; "ok"; "ok"; "x_0"; "0_0"; "none"]%string.
Proof. vm_compute. reflexivity. Qed.
Example C25_example_ok : Forall event_ok ex_history.
Proof.
  assert (config_ok ex_cf) as C.
  { split; [constructor; [intros [X|[]]; discriminate X|constructor; [intros []|constructor]]|].
    intros m [H|[H|[]]]; subst m; vm_compute; auto. }
  repeat (constructor; [first [exact C | exact Logic.I | vm_compute; reflexivity]|]). constructor.
Qed.

(** A restart is refused (the code raises IndexError) if a matchup without results, which a
    report has put in the table, has been removed from the control file. *)
Theorem C25_removed_matchup_refused : exists cf cf' t, config_ok cf /\ config_ok cf' /\
  t = write_report (set_clean_status cf) /\
  incl (cf_matchups cf') (cf_matchups cf) /\ set_status cf' (get_status t) = Err IndexError /\
  (exists t', set_status cf' (get_status (set_clean_status cf)) = Ok t').
Proof.
  exists ex_cf, (mkCf (cf_players ex_cf) (firstn 1 (cf_matchups ex_cf)) None), (write_report (set_clean_status ex_cf)).
  split; [|split; [|split; [reflexivity|split; [|split; [vm_compute; reflexivity|eexists; vm_compute; reflexivity]]]]].
  - split; [constructor; [intros [X|[]]; discriminate X|constructor; [intros []|constructor]]|].
    intros m [H|[H|[]]]; subst m; vm_compute; auto.
  - split; [constructor; [intros []|constructor]|]. intros m [H|[]]; subst m; vm_compute; auto.
  - intros m [H|[]]. left. exact H.
Qed.
Print Assumptions C25_removed_matchup_refused.

(** C26.  In every history, across restarts and changes to the control file (including to the
    number of games, hence to the padding), two jobs with the same game id are for the same
    game. *)
Theorem C26_game_ids_unique es j1 j2 : Forall event_ok es ->
  In j1 (jobs_of (snd (trun (None, None) es))) -> In j2 (jobs_of (snd (trun (None, None) es))) ->
  j_id j1 = j_id j2 -> j_data j1 = j_data j2.
Proof. exact (C26_ids_unique_proof es j1 j2). Qed.
Print Assumptions C26_game_ids_unique.

(** As long as there are no more games than the limit, game ids of a matchup have the same length (so
    that sorting them sorts the games). *)
Theorem C26_game_ids_constant_length m c n1 n2 : m_games m = Some c -> Z.of_nat n1 < c -> Z.of_nat n2 < c ->
  List.length (make_game_id m n1) = List.length (make_game_id m n2).
Proof. intros E A B. rewrite (make_game_id_length m c n1 E A), (make_game_id_length m c n2 E B). reflexivity. Qed.
Print Assumptions C26_game_ids_constant_length.

(** Every job handed out is for a matchup of the control file in use: the colours are those
    of the game's number, and the settings are the matchup's. *)
Theorem C26_colours_alternate m n : let j := make_job m n in
  (m_alternating m = false -> j_player_b j = m_player_1 m /\ j_player_w j = m_player_2 m) /\
  (m_alternating m = true -> Nat.even n = true -> j_player_b j = m_player_1 m /\ j_player_w j = m_player_2 m) /\
  (m_alternating m = true -> Nat.even n = false -> j_player_b j = m_player_2 m /\ j_player_w j = m_player_1 m).
Proof.
  unfold make_job. rewrite <- Nat.negb_even. destruct (m_alternating m), (Nat.even n); cbn; (split; [|split]); intros; try discriminate; auto.
Qed.
Print Assumptions C26_colours_alternate.

(** Playoff control files that are accepted have distinct matchup ids, defined players, two
    different players in each matchup (a copy of the first if the control file names the same
    player twice), and a matchup for each one written. *)
Theorem C26_playoff_control_files players l cf : playoff_config players l = Ok cf ->
  config_ok cf /\ (forall m, In m (cf_matchups cf) -> m_player_1 m <> m_player_2 m) /\
  List.length (cf_matchups cf) = List.length l /\ incl players (cf_players cf).
Proof. exact (playoff_config_ok players l cf). Qed.
Print Assumptions C26_playoff_control_files.

Definition ex_mc (id : option bytes) (a b : string) (n : option Z) : matchup_config := mkMC id (str a) (str b) true n ex_set.
Example C26_example_playoff :
  (do cf <- playoff_config [str "a"; str "b"] [ex_mc None "a" "b" (Some 11); ex_mc (Some (str "self")) "a" "a" None];
   Ok (cf_players cf, map (fun m => (m_id m, m_player_1 m, m_player_2 m, make_game_id m 7)) (cf_matchups cf)))
  = Ok ([str "a"; str "b"; str "a#2"], [(str "0", str "a", str "b", str "0_07"); (str "self", str "a", str "a#2", str "self_7")]).
Proof. vm_compute. reflexivity. Qed.
Example C26_example_clash :
  playoff_config [str "a"; str "b"] [ex_mc (Some (str "1")) "a" "b" None; ex_mc None "b" "a" None] = Err ControlFileError.
Proof. vm_compute. reflexivity. Qed.

(** C27.  All-play-alls. *)
Theorem C27_allplayall_covers_every_pair players competitors rounds s cf : allplayall_config players competitors rounds s = Ok cf ->
  config_ok cf /\ NoDup competitors /\ cf_competitors cf = Some competitors /\
  (forall m, In m (cf_matchups cf) -> In (m_player_1 m) competitors /\ In (m_player_2 m) competitors /\
     m_player_1 m <> m_player_2 m /\ m_games m = rounds /\ m_alternating m = true) /\
  (forall a b, In a competitors -> In b competitors -> a <> b -> exactly_one_meeting (cf_matchups cf) a b) /\
  2 * Z.of_nat (List.length (cf_matchups cf)) = Z.of_nat (List.length competitors) * (Z.of_nat (List.length competitors) - 1).
Proof. exact (C27_covers_proof players competitors rounds s cf). Qed.
Print Assumptions C27_allplayall_covers_every_pair.

(** Which lists of competitors are accepted. *)
Theorem C27_allplayall_accepted players competitors rounds s :
  (exists cf, allplayall_config players competitors rounds s = Ok cf) <->
  competitors <> [] /\ (List.length competitors <= 702)%nat /\ NoDup competitors /\ incl competitors players.
Proof. exact (C27_accepted_proof players competitors rounds s). Qed.
Print Assumptions C27_allplayall_accepted.

Theorem C27_short_codes_distinct i j c : short_code i = Ok c -> short_code j = Ok c -> i = j.
Proof. exact (short_code_inj i j c). Qed.
Print Assumptions C27_short_codes_distinct.

(** The announced number of games is the sum over the matchups (for at least two
    competitors). *)
Theorem C27_expected_games players competitors rounds s cf : allplayall_config players competitors rounds s = Ok cf ->
  (2 <= List.length competitors)%nat ->
  count_games_expected cf = Ok (match rounds with
    | None => None
    | Some _ => Some (sum (map (fun m => match m_games m with Some g => g | None => 0 end) (cf_matchups cf)))
    end).
Proof. exact (C27_expected_proof players competitors rounds s cf). Qed.
Print Assumptions C27_expected_games.

(** With a single competitor it raises IndexError. *)
Theorem C27_single_competitor p rounds s : exists cf,
  allplayall_config [p] [p] rounds s = Ok cf /\ count_games_expected cf = Err IndexError.
Proof.
  eexists. unfold allplayall_config, competitor_specs. cbn [bmem existsb]. rewrite bytes_eqb_refl. split; reflexivity.
Qed.
Print Assumptions C27_single_competitor.

Example C27_example :
  (do cf <- allplayall_config [str "p"; str "q"; str "r"; str "s"] [str "q"; str "p"; str "s"] (Some 4) ex_set;
   do n <- count_games_expected cf;
   Ok (n, map (fun m => (m_id m, m_player_1 m, m_player_2 m)) (cf_matchups cf)))
  = Ok (Some 12, [(str "AvB", str "q", str "p"); (str "AvC", str "q", str "s"); (str "BvC", str "p", str "s")]).
Proof. vm_compute. reflexivity. Qed.
Example C27_example_codes : map short_code [0; 25; 26; 701; 702]%nat =
  [Ok (str "A"); Ok (str "Z"); Ok (str "AA"); Ok (str "ZZ"); Err ValueError].
Proof. vm_compute. reflexivity. Qed.

(** C30.  What each statistic counts (scores in half points). *)
Theorem C30_statistics_count_games p1 p2 gs rs : p1 <> p2 -> Forall2 (records p1 p2) gs rs ->
  let s := matchup_stats rs p1 p2 in
  total s = Z.of_nat (List.length gs) /\
  unknown s = how_many is_unknown gs /\
  wins_1 s = 2 * how_many won_by_first gs + how_many is_jigo gs /\
  wins_2 s = 2 * how_many won_by_second gs + how_many is_jigo gs /\
  forfeits_1 s = how_many (fun g => won_by_second g && pl_forfeit g) gs /\
  forfeits_2 s = how_many (fun g => won_by_first g && pl_forfeit g) gs /\
  played_1b s = how_many pl_first_black gs /\ played_2w s = how_many pl_first_black gs /\
  played_1w s = how_many (fun g => negb (pl_first_black g)) gs /\ played_2b s = how_many (fun g => negb (pl_first_black g)) gs /\
  (by_colour s = None <-> played_1b s = 0 \/ played_1w s = 0) /\
  forall br, by_colour s = Some br ->
    wins_b br = 2 * how_many (won_as Black) gs + how_many is_jigo gs /\
    wins_w br = 2 * how_many (won_as White) gs + how_many is_jigo gs /\
    wins_1b br = 2 * how_many (fun g => won_by_first g && pl_first_black g) gs + how_many is_jigo gs /\
    wins_1w br = 2 * how_many (fun g => won_by_first g && negb (pl_first_black g)) gs + how_many is_jigo gs /\
    wins_2b br = 2 * how_many (fun g => won_by_second g && negb (pl_first_black g)) gs + how_many is_jigo gs /\
    wins_2w br = 2 * how_many (fun g => won_by_second g && pl_first_black g) gs + how_many is_jigo gs.
Proof. exact (C30_counts_proof p1 p2 gs rs). Qed.
Print Assumptions C30_statistics_count_games.

(** They add up. *)
Theorem C30_statistics_add_up p1 p2 gs rs : p1 <> p2 -> Forall2 (records p1 p2) gs rs ->
  let s := matchup_stats rs p1 p2 in
  wins_1 s + wins_2 s + 2 * unknown s = 2 * total s /\
  played_1b s + played_1w s = total s /\ played_2b s + played_2w s = total s /\
  played_1b s = played_2w s /\ played_1w s = played_2b s /\
  0 <= wins_1 s <= 2 * total s /\ 0 <= wins_2 s <= 2 * total s /\ 0 <= unknown s <= total s /\
  0 <= 2 * forfeits_1 s <= wins_2 s /\ 0 <= 2 * forfeits_2 s <= wins_1 s /\
  forall br, by_colour s = Some br ->
    wins_b br + wins_w br = wins_1 s + wins_2 s /\
    wins_1b br + wins_1w br = wins_1 s + how_many is_jigo gs /\
    wins_2b br + wins_2w br = wins_2 s + how_many is_jigo gs.
Proof. exact (C30_add_up_proof p1 p2 gs rs). Qed.
Print Assumptions C30_statistics_add_up.

(** The results that games give are of this kind. *)
Theorem C30_results_of_games r id b w gr :
  (exists win m d, result_from_score win m d = Ok r) \/ (exists g, result_from_unscored g = Ok r) ->
  make_game_result r id b w = Ok gr ->
  gr_id gr = id /\ result_between gr b w (match r_winner r with Some c => WonBy c | None => if r_jigo r then Jigo else Unknown end) /\
  gr_forfeit gr = r_forfeit r.
Proof. exact (result_between_proof r id b w gr). Qed.
Print Assumptions C30_results_of_games.

(** Which colour the players have when they don't alternate. *)
Theorem C30_fixed_colours p1 p2 gs rs : p1 <> p2 -> Forall2 (records p1 p2) gs rs -> gs <> [] ->
  colours (matchup_stats rs p1 p2) =
    (if forallb pl_first_black gs then Some (Black, White)
     else if forallb (fun g => negb (pl_first_black g)) gs then Some (White, Black) else None).
Proof.
  intros D F NE. destruct (C30_counts_proof p1 p2 gs rs D F) as (_ & _ & _ & _ & _ & _ & A & B & C & E & _).
  assert (colours (matchup_stats rs p1 p2) =
    if (played_1w (matchup_stats rs p1 p2) =? 0) && (played_2b (matchup_stats rs p1 p2) =? 0) then Some (Black, White)
    else if (played_1b (matchup_stats rs p1 p2) =? 0) && (played_2w (matchup_stats rs p1 p2) =? 0) then Some (White, Black) else None) as -> by reflexivity.
  rewrite A, B, C, E. clear. rewrite !andb_diag.
  assert (forall f : played -> bool, (how_many (fun g => negb (f g)) gs =? 0) = forallb f gs) as H.
  { intros f. induction gs as [|g gs IH]; [reflexivity|]. rewrite how_many_cons. cbn [forallb]. rewrite <- IH.
    assert (0 <= how_many (fun g => negb (f g)) gs) by (unfold how_many; lia).
    destruct (f g); cbn [negb andb]; [f_equal; lia|]. apply Z.eqb_neq. lia. }
  rewrite (H pl_first_black). rewrite <- (H (fun g => negb (pl_first_black g))).
  assert (how_many (fun g => negb (negb (pl_first_black g))) gs = how_many pl_first_black gs) as ->; [|reflexivity].
  unfold how_many. f_equal. f_equal. apply filter_ext. intros g. apply negb_involutive.
Qed.
Print Assumptions C30_fixed_colours.

(** The breakdown by colour counts every jigo for both colours, so a player can be reported
    to have a higher score as black than games played as black. *)
Definition ex_jigo (b w : bytes) : game_result :=
  mkGR b w None (str "0") None false None [] true None.
Theorem C30_breakdown_overcounts_jigos : exists p1 p2 gs rs br, p1 <> p2 /\ Forall2 (records p1 p2) gs rs /\
  by_colour (matchup_stats rs p1 p2) = Some br /\
  wins_1b br > 2 * played_1b (matchup_stats rs p1 p2) /\ wins_1b br + wins_1w br > wins_1 (matchup_stats rs p1 p2).
Proof.
  exists (str "p"), (str "q"), [mkPl true (WonBy Black) false; mkPl false Jigo false; mkPl false Jigo false],
    [ex_gr (str "p") (str "q") Black; ex_jigo (str "q") (str "p"); ex_jigo (str "q") (str "p")],
    (mkBr 4 2 4 2 2 2).
  split; [discriminate|]. split; [|vm_compute; auto].
  repeat constructor.
Qed.
Print Assumptions C30_breakdown_overcounts_jigos.

Example C30_example :
  matchup_stats [ex_gr (str "p") (str "q") Black; ex_gr (str "q") (str "p") Black; ex_jigo (str "q") (str "p")] (str "p") (str "q") =
  mkStats 3 1 0 3 3 0 0 1 2 2 1 None (Some (mkBr 5 1 3 1 3 1)).
Proof. vm_compute. reflexivity. Qed.
