(** What the tournament properties mean (C25 - C27, C30), apart from the code. *)
From Verif Require Import Base Bytes PyStr Dict CommonModel SchedModel GameplayModel TournModel.

(** * C25: the bookkeeping of a tournament *)

(** A game is identified by its matchup and its number. *)
Definition game : Type := bytes * nat.

(** The state of a running tournament: the control file, the games with recorded results (in
    order), the games that have been handed out and not recorded, the matchups which have
    completed a game in this run, the matchups whose last game failed, and the matchups that
    have an entry (possibly empty) in the table of results. *)
Record astate : Type := mkA {
  a_config : tconfig;
  a_done : list (game * game_result);
  a_out : list game;
  a_worked : list bytes;
  a_failing : list bytes;
  a_listed : list bytes
}.

Definition of_matchup (id : bytes) (l : list game) : list nat :=
  map snd (filter (fun g => bytes_eqb (fst g) id) l).
Definition results_of (id : bytes) (l : list (game * game_result)) : list game_result :=
  map snd (filter (fun g => bytes_eqb (fst (fst g)) id) l).

(** Games of a matchup that are recorded or handed out. *)
Definition in_hand (a : astate) (id : bytes) : list nat :=
  of_matchup id (map fst (a_done a)) ++ of_matchup id (a_out a).
Definition load (a : astate) (id : bytes) : Z := Z.of_nat (List.length (in_hand a id)).

(** The matchup hasn't reached its number of games. *)
Definition open_ (a : astate) (m : matchup) : Prop :=
  match m_games m with None => True | Some l => load a (m_id m) < l end.

(** The description of game [n] of matchup [m]: colours swapped in odd-numbered games of an
    alternating matchup, the settings of the matchup. *)
Definition job_of (m : matchup) (n : nat) (j : job) : Prop :=
  j_data j = (m_id m, n) /\ j_id j = make_game_id m n /\
  (if m_alternating m && Nat.odd n
   then j_player_b j = m_player_2 m /\ j_player_w j = m_player_1 m
   else j_player_b j = m_player_1 m /\ j_player_w j = m_player_2 m) /\
  j_board_size j = s_board_size (m_settings m) /\ j_komi j = s_komi (m_settings m) /\
  j_move_limit j = s_move_limit (m_settings m) /\ j_handicap j = s_handicap (m_settings m) /\
  j_handicap_is_free j = s_free (m_settings m) /\ j_use_internal_scorer j = s_internal (m_settings m) /\
  j_compensation j = s_compensation (m_settings m).

(** What is saved: the recorded results, the entries and the competitors. *)
Record asaved : Type := mkSv {
  sv_done : list (game * game_result);
  sv_listed : list bytes;
  sv_competitors : option (list bytes)
}.

(** The saved state fits the control file: the players of the first recorded result of each
    matchup are those of the control file; in an all-play-all, competitors have only been
    added at the end; and every listed matchup is in the control file or has a result. *)
Definition same_players (r : game_result) (m : matchup) : Prop :=
  (gr_player_b r = m_player_1 m /\ gr_player_w r = m_player_2 m) \/
  (gr_player_b r = m_player_2 m /\ gr_player_w r = m_player_1 m).
Definition competitors_fit (cf : tconfig) (s : asaved) : Prop :=
  match cf_competitors cf with
  | None => True
  | Some cs => exists seen more, sv_competitors s = Some seen /\ cs = seen ++ more
  end.
Definition players_fit (cf : tconfig) (s : asaved) : Prop :=
  forall m r rest, In m (cf_matchups cf) -> results_of (m_id m) (sv_done s) = r :: rest -> same_players r m.
Definition no_lost_entry (cf : tconfig) (s : asaved) : Prop :=
  forall id, In id (sv_listed s) -> In id (map m_id (cf_matchups cf)) \/ results_of id (sv_done s) <> [].
Definition fits (cf : tconfig) (s : asaved) : Prop :=
  competitors_fit cf s /\ players_fit cf s /\ no_lost_entry cf s.

(** What happens to a tournament. *)
Inductive tevent : Type :=
| TGet                        (* get_game() *)
| TResult (r : response)      (* process_game_result(r) *)
| TError (j : job)            (* process_game_error(j, ...) *)
| TReport                     (* a report is written *)
| TSave                       (* get_status() is pickled and stored *)
| TStart (cf : tconfig).      (* a new process, with this control file, loads the stored
                                 status if there is one *)
Inductive tanswer : Type :=
| TJob (j : job) | TNoGame | TDone | TRefused | TVerdict (stop retry : bool).

Definition asys : Type := option astate * option asaved.

Definition add_to (id : bytes) (l : list bytes) : list bytes := if bmem id l then l else id :: l.
Definition take_from (id : bytes) (l : list bytes) : list bytes := filter (fun y => negb (bytes_eqb id y)) l.

Inductive atstep : asys -> tevent -> tanswer -> asys -> Prop :=
(** A game is handed out: of the open matchups, the first with the fewest games in hand; the
    smallest number that isn't recorded or handed out. *)
| at_get a sv ms1 m ms2 n j :
    cf_matchups (a_config a) = ms1 ++ m :: ms2 -> open_ a m ->
    (forall m', In m' ms1 -> open_ a m' -> load a (m_id m) < load a (m_id m')) ->
    (forall m', In m' ms2 -> open_ a m' -> load a (m_id m) <= load a (m_id m')) ->
    ~ In n (in_hand a (m_id m)) -> (forall k, (k < n)%nat -> In k (in_hand a (m_id m))) ->
    job_of m n j ->
    atstep (Some a, sv) TGet (TJob j)
      (Some (mkA (a_config a) (a_done a) ((m_id m, n) :: a_out a) (a_worked a) (a_failing a) (a_listed a)), sv)
(** No game is available when every matchup has reached its number of games. *)
| at_none a sv :
    (forall m, In m (cf_matchups (a_config a)) -> ~ open_ a m) ->
    atstep (Some a, sv) TGet TNoGame (Some a, sv)
(** A result for a game that is handed out is recorded. *)
| at_result a sv r o1 o2 id n :
    rs_data r = (id, n) -> a_out a = o1 ++ (id, n) :: o2 ->
    atstep (Some a, sv) (TResult r) TDone
      (Some (mkA (a_config a) (a_done a ++ [((id, n), rs_result r)]) (o1 ++ o2)
                 (add_to id (a_worked a)) (take_from id (a_failing a)) (add_to id (a_listed a))), sv)
(** Any other result is refused. *)
| at_bad_result a sv r id n :
    rs_data r = (id, n) -> ~ In (id, n) (a_out a) ->
    atstep (Some a, sv) (TResult r) TRefused
      (Some (mkA (a_config a) (a_done a) (a_out a)
                 (add_to id (a_worked a)) (take_from id (a_failing a)) (a_listed a)), sv)
(** After an error the game is to be retried if the matchup has completed a game in this run
    and its last game didn't fail; otherwise the competition is to stop. *)
| at_retry a sv j id n :
    j_data j = (id, n) -> In id (a_worked a) -> ~ In id (a_failing a) ->
    atstep (Some a, sv) (TError j) (TVerdict false true)
      (Some (mkA (a_config a) (a_done a) (a_out a) (a_worked a) (add_to id (a_failing a)) (a_listed a)), sv)
| at_stop a sv j id n :
    j_data j = (id, n) -> (~ In id (a_worked a) \/ In id (a_failing a)) ->
    atstep (Some a, sv) (TError j) (TVerdict true false) (Some a, sv)
| at_report a sv listed :
    (forall id, In id listed <-> In id (a_listed a) \/ In id (map m_id (cf_matchups (a_config a)))) ->
    atstep (Some a, sv) TReport TDone
      (Some (mkA (a_config a) (a_done a) (a_out a) (a_worked a) (a_failing a) listed), sv)
| at_save a sv :
    atstep (Some a, sv) TSave TDone
      (Some a, Some (mkSv (a_done a) (a_listed a) (cf_competitors (a_config a))))
(** Starting: the recorded results are those last saved, and nothing is handed out. *)
| at_start_clean x cf :
    atstep (x, None) (TStart cf) TDone (Some (mkA cf [] [] [] [] []), None)
| at_start x s cf listed :
    fits cf s ->
    (forall id, In id listed <-> In id (sv_listed s) \/ In id (map m_id (cf_matchups cf))) ->
    atstep (x, Some s) (TStart cf) TDone (Some (mkA cf (sv_done s) [] [] [] listed), Some s)
| at_start_refused x s cf :
    ~ fits cf s -> atstep (x, Some s) (TStart cf) TRefused (None, Some s)
(** Nothing happens while no tournament is running. *)
| at_idle sv e : (forall cf, e <> TStart cf) -> atstep (None, sv) e TRefused (None, sv).

Inductive atrun : asys -> list tevent -> list tanswer -> asys -> Prop :=
| atr_nil s : atrun s [] [] s
| atr_cons s e a s1 es os s2 : atstep s e a s1 -> atrun s1 es os s2 -> atrun s (e :: es) (a :: os) s2.

(** ** The code's histories *)
Definition tsys : Type := option tourn * option tstatus.

Definition trun_step (s : tsys) (e : tevent) : tsys * tanswer :=
  let (x, sv) := s in
  match e with
  | TStart cf =>
      match sv with
      | None => ((Some (set_clean_status cf), None), TDone)
      | Some st => match set_status cf st with
                   | Ok t => ((Some t, sv), TDone)
                   | Err _ => ((None, sv), TRefused)
                   end
      end
  | _ =>
      match x with
      | None => ((None, sv), TRefused)
      | Some t =>
          match e with
          | TGet => match get_game t with
                    | (t', Ok (Some j)) => ((Some t', sv), TJob j)
                    | (t', Ok None) => ((Some t', sv), TNoGame)
                    | (t', Err _) => ((Some t', sv), TRefused)
                    end
          | TResult r => match process_game_result r t with
                         | (t', Ok _) => ((Some t', sv), TDone)
                         | (t', Err _) => ((Some t', sv), TRefused)
                         end
          | TError j => let '(t', (stop, retry)) := process_game_error j t in ((Some t', sv), TVerdict stop retry)
          | TReport => ((Some (write_report t), sv), TDone)
          | TSave => ((Some t, Some (get_status t)), TDone)
          | TStart _ => ((x, sv), TRefused)
          end
      end
  end.

Fixpoint trun (s : tsys) (es : list tevent) : tsys * list tanswer :=
  match es with
  | [] => (s, [])
  | e :: rest =>
      let (s1, a) := trun_step s e in
      let (s2, os) := trun s1 rest in (s2, a :: os)
  end.

(** Control files: matchup ids are distinct and the players are defined (see
    C26_playoff_control_files and C27_allplayall_covers_every_pair). *)
Definition config_ok (cf : tconfig) : Prop :=
  NoDup (map m_id (cf_matchups cf)) /\
  forall m, In m (cf_matchups cf) -> In (m_player_1 m) (cf_players cf) /\ In (m_player_2 m) (cf_players cf).

(** A result that pickling doesn't change (see C25_results_survive_saving). *)
Definition pickles (r : game_result) : Prop := game_result_setstate (game_result_getstate r) = r.

Definition event_ok (e : tevent) : Prop :=
  match e with
  | TStart cf => config_ok cf
  | TResult r => pickles (rs_result r)
  | _ => True
  end.

(** * C26, C27: control files *)

(** The two players of a matchup, in either order. *)
Definition meets (m : matchup) (a b : bytes) : Prop :=
  (m_player_1 m = a /\ m_player_2 m = b) \/ (m_player_1 m = b /\ m_player_2 m = a).

(** [l] contains exactly one matchup between [a] and [b]. *)
Definition exactly_one_meeting (l : list matchup) (a b : bytes) : Prop :=
  exists l1 m l2, l = l1 ++ m :: l2 /\ meets m a b /\ forall m', In m' (l1 ++ l2) -> ~ meets m' a b.

(** The total number of games of a list of matchups. *)
Definition sum (l : list Z) : Z := fold_right Z.add 0 l.

(** The jobs among the answers. *)
Definition jobs_of (os : list tanswer) : list job :=
  flat_map (fun o => match o with TJob j => [j] | _ => [] end) os.

(** * C30: results of games between two players *)
Inductive outcome : Type := WonBy (c : colour) | Jigo | Unknown.

(** [r] is the result of a game between black [b] and white [w] that ended with [o]. *)
Definition result_between (r : game_result) (b w : bytes) (o : outcome) : Prop :=
  gr_player_b r = b /\ gr_player_w r = w /\
  match o with
  | WonBy c => gr_winner r = Some c /\ gr_jigo r = false /\
               gr_winning_player r = Some (match c with Black => b | White => w end)
  | Jigo => gr_winner r = None /\ gr_jigo r = true /\ gr_winning_player r = None
  | Unknown => gr_winner r = None /\ gr_jigo r = false /\ gr_winning_player r = None
  end.

(** A game: was player 1 black, how did it end, was it a forfeit. *)
Record played : Type := mkPl { pl_first_black : bool; pl_outcome : outcome; pl_forfeit : bool }.
Definition records (p1 p2 : bytes) (g : played) (r : game_result) : Prop :=
  result_between r (if pl_first_black g then p1 else p2) (if pl_first_black g then p2 else p1) (pl_outcome g) /\
  gr_forfeit r = pl_forfeit g.

Definition how_many {A} (P : A -> bool) (l : list A) : Z := Z.of_nat (List.length (filter P l)).
(** Games won by the first (second) player; games lost by forfeit. *)
Definition won_by_first (g : played) : bool :=
  match pl_outcome g with WonBy Black => pl_first_black g | WonBy White => negb (pl_first_black g) | _ => false end.
Definition won_by_second (g : played) : bool :=
  match pl_outcome g with WonBy Black => negb (pl_first_black g) | WonBy White => pl_first_black g | _ => false end.
Definition won_as (c : colour) (g : played) : bool :=
  match pl_outcome g with WonBy c' => colour_eqb c' c | _ => false end.
Definition is_jigo (g : played) : bool := match pl_outcome g with Jigo => true | _ => false end.
Definition is_unknown (g : played) : bool := match pl_outcome g with Unknown => true | _ => false end.

(** The games handed out since the last start and not recorded since, read off a history. *)
Definition game_eqb (a b : game) : bool := bytes_eqb (fst a) (fst b) && Nat.eqb (snd a) (snd b).
Fixpoint outstanding (out : list game) (es : list tevent) (os : list tanswer) : list game :=
  match es, os with
  | e :: es', o :: os' =>
      outstanding
        (match e, o with
         | TStart _, _ => []
         | TGet, TJob j => j_data j :: out
         | TResult r, TDone => filter (fun g => negb (game_eqb (rs_data r) g)) out
         | _, _ => out
         end) es' os'
  | _, _ => out
  end.
