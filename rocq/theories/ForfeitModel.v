(** Model of the tournament results API (tournament_results.py:46-96 Tournament_results, obtained
    with ringmasters.py:478-492 [get_tournament_results] and tournaments.py:316-318) and of
    gomill_examples/find_forfeits.py, which uses it. *)
From Verif Require Import Base Bytes PyStr Dict CommonModel TournModel ReportModel RingFilesModel CliModel.
Open Scope Z_scope.

(** tournament_results.py:54-57 [Tournament_results.__init__].  [results] is the tournament's own
    defaultdict, so reading an entry that isn't there creates it: methods that read it give the
    new state. *)
Record tresults : Type := mkTR {
  tr_list : list matchup;
  tr_results : dict (list game_result);
  tr_matchups : dict matchup
}.
Definition make_tresults (ms : list matchup) (d : dict (list game_result)) : tresults :=
  mkTR ms d (fold_left (fun acc m => dset (m_id m) m acc) ms []).

(** tournaments.py:316-318 [get_tournament_results]. *)
Definition tournament_results (t : tourn) : tresults := make_tresults (cf_matchups (t_config t)) (t_results t).

(** tournament_results.py:59-61 [get_matchup_ids]. *)
Definition get_matchup_ids (x : tresults) : list bytes := map m_id (tr_list x).

(** tournament_results.py:63-69 [get_matchup]. *)
Definition get_matchup (x : tresults) (id : bytes) : res matchup :=
  match dget id (tr_matchups x) with Some m => Ok m | None => Err KeyError end.

(** tournament_results.py:71-73 [get_matchups]. *)
Definition get_matchups (x : tresults) : dict matchup := tr_matchups x.

(** [self.results[matchup_id]] on a defaultdict(list). *)
Definition read_results (x : tresults) (id : bytes) : tresults * list game_result :=
  match dget id (tr_results x) with
  | Some l => (x, l)
  | None => (mkTR (tr_list x) (dset id [] (tr_results x)) (tr_matchups x), [])
  end.

(** tournament_results.py:75-83 [get_matchup_results]; the slice copies. *)
Definition results_for (x : tresults) (id : bytes) : tresults * list game_result := read_results x id.

(** tournament_results.py:85-96 [get_matchup_stats]. *)
Definition get_matchup_stats (x : tresults) (id : bytes) : tresults * res stats :=
  match get_matchup x id with
  | Err e => (x, Err e)
  | Ok m => let '(x', l) := read_results x id in (x', Ok (matchup_stats l (m_player_1 m) (m_player_2 m)))
  end.

(** gtp_games.py:49-53 [losing_player]. *)
Definition losing_player (r : game_result) : option bytes :=
  match gr_winner r with
  | None => None
  | Some c => player_of (gr_player_b r) (gr_player_w r) (Some (opponent_of c))
  end.

(** ['%s' % x] for a string or None. *)
Definition percent_s (x : option bytes) : bytes := match x with Some t => t | None => str "None" end.

(** ringmasters.py:367-369 [get_sgf_filename]. *)
Definition sgf_filename (game_id : option bytes) : bytes := percent_s game_id ++ str ".sgf".

Section Script.
(** The competition is a tournament with these matchups ([None]: a tuner, whose
    [get_tournament_results] raises NotImplementedError, competitions.py:429-440). *)
Variable competition : option tconfig.
Variable given : bytes -> option bytes.        (* the names given to matchups in the control file *)
Variable w : @world tstatus.
Variable decodes : bytes -> bool.
Variable comp_vn : Z.
Variable brief traceback : exn -> bytes.
Notation "'act' x <- m ; k" := (bind m (fun x => k)) (at level 200, x name, right associativity).
Notation "m ;; k" := (bind m (fun _ => k)) (at level 100, k at level 200, right associativity).

(** find_forfeits.py:13-15 [show_result]. *)
Definition show_result (m : matchup) (r : game_result) (filename : bytes) : @M tstatus unit :=
  say (d_name (describe_matchup (given (m_id m)) m) ++ str ": " ++ percent_s (losing_player r) ++
       str " forfeited game " ++ filename).

(** find_forfeits.py:20-27: the loops. *)
Fixpoint show_forfeits (m : matchup) (rs : list game_result) : @M tstatus unit :=
  match rs with
  | [] => ret tt
  | r :: rest => when (gr_forfeit r) (show_result m r (sgf_filename (gr_id r))) ;; show_forfeits m rest
  end.
Fixpoint each_matchup (x : tresults) (ids : list bytes) : @M tstatus unit :=
  match ids with
  | [] => ret tt
  | id :: rest =>
      match get_matchup x id with
      | Err _ => raise (XKey id)
      | Ok m => let '(x', rs) := results_for x id in show_forfeits m rs ;; each_matchup x' rest
      end
  end.

(** The status the competition was last given. *)
Fixpoint last_status (h : @history tstatus) (found : option tstatus) : option tstatus :=
  match h with
  | [] => found
  | Called (SetStatus _ st) _ :: rest => last_status rest (Some st)
  | _ :: rest => last_status rest found
  end.

(** ringmasters.py:478-492 [get_tournament_results], after load_status (ringmasters.py:438 sets
    status_is_loaded). *)
Definition get_tournament_results : @M tstatus tresults := fun h =>
  match competition with
  | None => raise (XRing (str "competition is not a tournament")) h
  | Some cf =>
      match last_status h None with
      | None => raise (XRing (str "status is not loaded")) h
      | Some st => match set_status cf st with
                   | Ok t => ret (tournament_results t) h
                   | Err _ => raise (XOther []) h
                   end
      end
  end.

(** find_forfeits.py:17-27 [find_forfeits]. *)
Definition find_forfeits : @M tstatus unit :=
  load_status w comp_vn traceback ;;
  act x <- get_tournament_results ;
  each_matchup x (get_matchup_ids x).

(** find_forfeits.py:34-50 [main]: the exit status.  [parser.error] exits with 2; an exception that
    isn't caught gives a traceback on standard error and 1. *)
Definition main (args : list bytes) : @history tstatus * Z :=
  match args with
  | [] => ([Complained (str "find_forfeits.py: error: not enough arguments" ++ nl)], 2)
  | [control] =>
      match (make_ringmaster w decodes brief traceback control ;; find_forfeits) [] with
      | (h, Good _) => (h, 0)
      | (h, Raise (XRing t)) => (h ++ [Complained (str "ringmaster:" ++ nl); Complained (t ++ nl)], 1)
      | (h, Raise e) => (h ++ [Complained (traceback e)], 1)
      end
  | _ => ([Complained (str "find_forfeits.py: error: too many arguments" ++ nl)], 2)
  end.
End Script.
