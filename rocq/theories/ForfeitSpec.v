(** What the tournament results API and find_forfeits.py are to do. *)
From Verif Require Import Base Bytes PyStr Dict CommonModel TournModel TournSpec RingFilesModel CliModel CliSpec.
Open Scope Z_scope.

(** The name of a matchup: the one given in the control file, or the two players. *)
Definition matchup_name (given : bytes -> option bytes) (m : matchup) : bytes :=
  match given (m_id m) with Some n => n | None => m_player_1 m ++ str " v " ++ m_player_2 m end.

(** The line for a game that was won by [c]. *)
Inductive forfeit_line (given : bytes -> option bytes) : matchup * game_result -> bytes -> Prop :=
| fl m r b w c id : result_between r b w (WonBy c) -> gr_id r = Some id ->
    forfeit_line given (m, r)
      (matchup_name given m ++ str ": " ++ (match c with Black => w | White => b end) ++
       str " forfeited game " ++ id ++ str ".sgf").

(** The forfeited games, by matchup in the order of the control file, in the order in which they
    were recorded. *)
Definition forfeits (ms : list matchup) (done : list (game * game_result)) : list (matchup * game_result) :=
  flat_map (fun m => map (pair m) (filter gr_forfeit (results_of (m_id m) done))) ms.

(** Results of games: a forfeit has a winner; the game has an id. *)
Definition proper_forfeit (r : game_result) : Prop :=
  gr_forfeit r = true -> (exists b w c, result_between r b w (WonBy c)) /\ exists id, gr_id r = Some id.
Definition proper_event (e : tevent) : Prop := match e with TResult r => proper_forfeit (rs_result r) | _ => True end.

(** The control file is read and interpreted without an error. *)
Definition control_reads (w : @world tstatus) (decodes : bytes -> bool) (control : bytes) : Prop :=
  existsb (bytes_eqb (extension control)) forbidden = false /\
  (forall h, exists text type cls skip,
     w ReadControl h = Good text /\ parse_competition_type text = Ok type /\ get_competition_class type = Ok cls /\
     decodes text = true /\ (forall h', w Interpret h' = Good (Some type)) /\
     (forall h', w InitRingmaster h' = Good skip) /\ (forall h', w InitCompetition h' = Good tt)).

(** The status file holds [st], in the right format. *)
Definition status_reads (w : @world tstatus) (comp_vn : Z) (st : tstatus) : Prop :=
  forall h, exists void, w ReadStatus h = Good (Pair status_format_version (mkStatus (Some comp_vn) (Some void) (Some st))).

(** Giving the tournament with control file [cf] a status works as modelled. *)
Definition loads (w : @world tstatus) (cf : tconfig) : Prop :=
  forall void st h, match set_status cf st with
                    | Ok _ => w (SetStatus void st) h = Good tt
                    | Err _ => exists e, w (SetStatus void st) h = Raise e
                    end.
