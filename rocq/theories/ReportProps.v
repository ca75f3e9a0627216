(** C66: the reports on tournaments. *)
From Coq Require Import QArith Permutation.
From Verif Require Import Base Bytes PyStr Dict CommonModel SchedModel GtpModel GameplayModel TournModel TournSpec TournProofs TournConfProofs
  TableModel TableSpec TableProofs TableReadProofs ReportModel ReportSpec ReportTextProofs ReportTableProofs ReportSaysProofs ReportWholeProofs ReportHistoryProofs.
Open Scope Z_scope.

(** The report on a matchup says exactly what the games were: a line that names it and counts
    the games; a line that counts the games without a result, if any; the settings; and a table
    with the wins of each player, their percentages, those with each colour (or the colour), the
    forfeits and the mean cpu times. *)
Theorem C66_matchup_report tie d rs :
  word (d_player_1 d) -> word (d_player_2 d) -> has_times (d_player_1 d) rs -> has_times (d_player_2 d) rs ->
  exists text, matchup_report tie d rs = Ok text /\ summary_says d rs text.
Proof. exact (report_proof tie d rs). Qed.
Print Assumptions C66_matchup_report.

(** Playoffs: the matchups that have results, in the order of the control file; in the other
    report also the matchups that are no longer in the control file, by id, and the
    descriptions of the players, by code. *)
Theorem C66_playoff_reports tie code description given t : reportable t ->
  (exists live, playoff_screen_report tie given t = Ok live /\ live_says given t live) /\
  exists live ghosts players, live_says given t live /\ ghosts_say t ghosts /\ players_say t players /\
    playoff_short_report tie code description given t =
      Ok (ended (describing (str "playoff") code description) ++ live ++ ghosts ++ [char_lf] ++ players ++ [char_lf]).
Proof. exact (playoff_proof tie code description given t). Qed.
Print Assumptions C66_playoff_reports.

(** All-play-alls: the number of games played and expected, and the table of the scores of
    each competitor against each other. *)
Theorem C66_allplayall_screen_report t players competitors rounds s :
  allplayall_config players competitors rounds s = Ok (t_config t) -> (2 <= List.length competitors)%nat ->
  exists text, allplayall_screen_report t = Ok text /\ screen_says t competitors rounds text.
Proof. exact (screen_proof t players competitors rounds s). Qed.
Print Assumptions C66_allplayall_screen_report.

Theorem C66_allplayall_short_report tie code description t players competitors rounds s :
  allplayall_config players competitors rounds s = Ok (t_config t) -> (2 <= List.length competitors)%nat -> reportable t ->
  exists screen live descs, screen_says t competitors rounds screen /\ live_says (fun _ => None) t live /\ players_say t descs /\
    allplayall_short_report tie code description t =
      Ok (ended (describing (str "allplayall") code description) ++ screen ++ [char_lf] ++ live ++ [char_lf] ++ descs ++ [char_lf]).
Proof. exact (allplayall_proof tie code description t players competitors rounds s). Qed.
Print Assumptions C66_allplayall_short_report.

(** After every history of a tournament -- with restarts and changed control files -- there can
    be a report, if the codes of the players are words and each matchup id is always used for
    the same two players. *)
Theorem C66_always_reportable who es t sv os :
  (forall id, word (fst (who id)) /\ word (snd (who id))) -> Forall (sensible who) es ->
  trun (None, None) es = ((Some t, sv), os) -> reportable t.
Proof. exact (reportable_proof who es t sv os). Qed.
Print Assumptions C66_always_reportable.

(** The two scores that the table of an all-play-all shows for a pair are the same in both
    places, the other way round. *)
Theorem C66_scores_agree p rs h h' s s' : points (won_by p) rs h -> shows_half h s -> points (won_by p) rs h' -> shows_half h' s' -> h = h' /\ s = s'.
Proof.
  intros (a & b & A & B & ->) S (a' & b' & A' & B' & ->) S'.
  rewrite (such_fun _ _ _ _ A' A), (such_fun _ _ _ _ B' B) in S'. rewrite (such_fun _ _ _ _ A' A), (such_fun _ _ _ _ B' B). split; [reflexivity|].
  destruct S as (n & P & [[E ->]|[E ->]]), S' as (m & Q & [[E' ->]|[E' ->]]); try (exfalso; lia); (assert (m = n) by lia); subst; reflexivity.
Qed.
Print Assumptions C66_scores_agree.

(** A single competitor: there is no report (C27_single_competitor). *)
Theorem C66_single_competitor t p rounds s : allplayall_config [p] [p] rounds s = Ok (t_config t) -> allplayall_screen_report t = Err IndexError.
Proof.
  intros E. destruct (C27_covers_proof _ _ _ _ _ E) as (_ & _ & CC & _ & _ & L). unfold allplayall_screen_report. rewrite CC. cbn [List.length] in L.
  unfold count_games_expected. destruct (cf_matchups (t_config t)); [reflexivity|cbn [List.length] in L; lia].
Qed.
Print Assumptions C66_single_competitor.

(** ** Concrete reports *)
Definition demo_settings : settings := mkSet 9 (75, 1%nat) None false 1000 true CompNo.
Definition demo_gr (b w : bytes) (c : option colour) (jigo forfeit : bool) (tb tw : option num) : game_result :=
  mkGR b w c (str "B+3") None forfeit None (dset w tw (dset b tb [])) jigo (player_of b w c).
Definition demo_cf : tconfig :=
  mkCf [str "ab"; str "cd"; str "ef"] [mkM (str "0") (str "ab") (str "cd") true (Some 4) demo_settings;
                                       mkM (str "1") (str "ef") (str "ab") false None demo_settings] None.
Definition demo_result (id : bytes) (n : nat) (r : game_result) : tevent :=
  TResult (mkResp (id ++ str "_" ++ str_int (Z.of_nat n)) (id, n) r [(gr_player_b r, (str "x", gr_player_b r ++ str " 1.0"))]).
Definition demo_history : list tevent :=
  [TStart demo_cf; TGet; TGet; TGet; TGet; TGet; TGet;
   demo_result (str "0") 0 (demo_gr (str "ab") (str "cd") (Some Black) false false (Some (125, 1%nat)) None);
   demo_result (str "0") 1 (demo_gr (str "cd") (str "ab") (Some Black) false true None None);
   demo_result (str "0") 2 (demo_gr (str "ab") (str "cd") None true false None None);
   demo_result (str "1") 0 (demo_gr (str "ef") (str "ab") None false false None None)].
Definition demo_who (id : bytes) : bytes * bytes := if bytes_eqb id (str "0") then (str "ab", str "cd") else (str "ef", str "ab").
Definition demo_tourn : tourn := match fst (fst (trun (None, None) demo_history)) with Some t => t | None => set_clean_status demo_cf end.
Definition no_tie (n d : Z) : bool := false.

Lemma demo_run : exists sv os, trun (None, None) demo_history = ((Some demo_tourn, sv), os).
Proof. eexists. eexists. vm_compute. reflexivity. Qed.

Example C66_demo_reportable : reportable demo_tourn.
Proof.
  destruct demo_run as (sv & os & E). refine (C66_always_reportable demo_who demo_history demo_tourn sv os _ _ E).
  - intros id. unfold demo_who, word. destruct (bytes_eqb id (str "0")); cbn [fst snd];
      (split; split; [discriminate| |discriminate|]); repeat (apply Forall_cons; [intros X; discriminate X|]); apply Forall_nil.
  - unfold demo_history, demo_result. repeat (apply Forall_cons; [cbn [sensible fst snd rs_data rs_result]|]); try apply Forall_nil; try exact I.
    + intros m [<-|[<-|[]]]; left; reflexivity.
    + split; [left; reflexivity|split; eexists; reflexivity].
    + split; [right; reflexivity|split; eexists; reflexivity].
    + split; [left; reflexivity|split; eexists; reflexivity].
    + split; [left; reflexivity|split; eexists; reflexivity].
Qed.

Example C66_demo_playoff :
  playoff_short_report no_tie (str "demo") (Some (str "A test.")) (fun id => if bytes_eqb id (str "1") then Some (str "second") else None) demo_tourn =
  Ok (ended (map str
  ["playoff: demo";
   "A test.";
   "";
   "ab v cd (3/4 games)";
   "board size: 9   komi: 7.5";
   "     wins              black           white        forfeits avg cpu";
   "ab    1.5 50.00%       1.5  75.00%     0.5 50.00%          1   12.50";
   "cd    1.5 50.00%       1.5 150.00%     0.5 25.00%          0    ----";
   "                       2.5  83.33%     0.5 16.67%";
   "";
   "second (1 games)";
   "unknown results: 1 100.00%";
   "board size: 9   komi: 7.5";
   "     wins";
   "ef      0 0.00%   (black)";
   "ab      0 0.00%   (white)";
   "";
   "player ab: ab 1.0";
   "player cd: cd 1.0";
   "player ef: ef 1.0";
   ""]%string)).
Proof. vm_compute. reflexivity. Qed.

Definition demo_all : res tconfig := allplayall_config [str "ab"; str "cd"; str "ef"] [str "ab"; str "cd"; str "ef"] (Some 2) demo_settings.
Definition demo_all_cf : tconfig := match demo_all with Ok cf => cf | Err _ => demo_cf end.
Definition demo_all_tourn : tourn :=
  match fst (fst (trun (None, None) [TStart demo_all_cf; TGet; TGet; TGet; TGet;
    demo_result (str "AvB") 0 (demo_gr (str "ab") (str "cd") (Some Black) false false None None);
    demo_result (str "AvB") 1 (demo_gr (str "cd") (str "ab") None true false None None);
    demo_result (str "AvC") 0 (demo_gr (str "ab") (str "ef") (Some White) false false None None)])) with
  | Some t => t | None => set_clean_status demo_cf end.

Example C66_demo_allplayall_config : allplayall_config [str "ab"; str "cd"; str "ef"] [str "ab"; str "cd"; str "ef"] (Some 2) demo_settings = Ok (t_config demo_all_tourn).
Proof. vm_compute. reflexivity. Qed.

Example C66_demo_allplayall : allplayall_screen_report demo_all_tourn =
  Ok (ended (map str
  ["3/6 games played";
   "";
   "      A       B       C";
   "A ab         1.5-0.5 0-1";
   "B cd 0.5-1.5         0-0";
   "C ef 1-0     0-0"]%string)).
Proof. vm_compute. reflexivity. Qed.

(** Finding: the scores by colour add the score of all the jigos to each, so a player can have more
    than 100% (the 150.00% above: "cd" played one game with Black, and won it; the jigo was
    played with White). *)
