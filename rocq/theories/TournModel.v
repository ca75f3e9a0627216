(** Model of gomill/tournaments.py, gomill/playoffs.py, gomill/allplayalls.py,
    gomill/tournament_results.py:Matchup_stats, gomill/gtp_games.py:Game_result and the
    helpers of gomill/competitions.py. *)
From Verif Require Import Base Bytes PyStr Dict CommonModel SchedModel GameplayModel.

(** The exceptions of competitions.py:20-30. *)
Definition CompetitionError : exn := OtherError 101.
Definition ControlFileError : exn := OtherError 102.

Definition bmem (x : bytes) (l : list bytes) : bool := existsb (bytes_eqb x) l.
(** [set.add] and [set.discard]. *)
Definition badd (x : bytes) (l : list bytes) : list bytes := if bmem x l then l else x :: l.
Definition bdiscard (x : bytes) (l : list bytes) : list bytes := filter (fun y => negb (bytes_eqb x y)) l.

(** [==] of lists of strings. *)
Fixpoint blist_eqb (a b : list bytes) : bool :=
  match a, b with
  | [], [] => true
  | x :: a', y :: b' => bytes_eqb x y && blist_eqb a' b'
  | _, _ => false
  end.

(** * Matchups *)

(** competitions.py:503-512 [game_settings], after interpretation; the enumerations are
    booleans (handicap_style == 'free', scorer == 'internal') and [compensation]. *)
Record settings : Type := mkSet {
  s_board_size : Z;
  s_komi : num;
  s_handicap : option Z;
  s_free : bool;
  s_move_limit : Z;
  s_internal : bool;
  s_compensation : compensation
}.

(** tournaments.py:21-74 [Matchup] (without the names used in reports and game records). *)
Record matchup : Type := mkM {
  m_id : bytes;
  m_player_1 : bytes;
  m_player_2 : bytes;
  m_alternating : bool;
  m_games : option Z;            (* number_of_games *)
  m_settings : settings
}.

(** competitions.py:455-476 [validate_handicap]. *)
Definition validate_handicap (handicap : option Z) (free : bool) (size : Z) : res unit :=
  match handicap with
  | None => Ok tt
  | Some h =>
      if h <? 2 then Err ControlFileError
      else
        do limit <- (if free then Ok (max_free_handicap size) else max_fixed_handicap size);
        if limit <? h then Err ControlFileError else Ok tt
  end.

(** tournaments.py:46-70 [Matchup.__init__]. *)
Definition make_matchup (id p1 p2 : bytes) (alternating : bool) (games : option Z) (s : settings) : res matchup :=
  do _ <- validate_handicap (s_handicap s) (s_free s) (s_board_size s);
  Ok (mkM id p1 p2 alternating games s).

(** competitions.py:481-498 [leading_zero_template] applied to a number: ['%d' % n] or
    ['%0Nd' % n]. *)
Definition leading_zero (ceiling : option Z) (n : nat) : bytes :=
  match ceiling with
  | None => str_int (Z.of_nat n)
  | Some c => zfill (List.length (str_int (c - 1))) (str_int (Z.of_nat n))
  end.

(** tournaments.py:75-76 [make_game_id]. *)
Definition make_game_id (m : matchup) (n : nat) : bytes :=
  m_id m ++ str "_" ++ leading_zero (m_games m) n.

(** * Playoffs: playoffs.py:45-128.  A matchup description after the settings have been
    interpreted and the defaults merged in; players as written in the control file. *)
Record matchup_config : Type := mkMC {
  mc_id : option bytes;
  mc_player_1 : bytes;
  mc_player_2 : bytes;
  mc_alternating : bool;
  mc_games : option Z;
  mc_settings : settings
}.

(** playoffs.py:45-95 [matchup_from_config]; [players] are the codes in [self.players], to
    which a clone may be added. *)
Definition matchup_from_config (players : list bytes) (number : nat) (c : matchup_config)
  : res (list bytes * matchup) :=
  let id := match mc_id c with Some i => i | None => str_int (Z.of_nat number) end in
  if negb (bmem (mc_player_1 c) players) then Err ControlFileError
  else if negb (bmem (mc_player_2 c) players) then Err ControlFileError
  else
    let p2 := if bytes_eqb (mc_player_1 c) (mc_player_2 c) then mc_player_2 c ++ str "#2" else mc_player_2 c in
    let players' := if bmem p2 players then players else players ++ [p2] in
    match make_matchup id (mc_player_1 c) p2 (mc_alternating c) (mc_games c) (mc_settings c) with
    | Ok m => Ok (players', m)
    | Err _ => Err ControlFileError
    end.

(** playoffs.py:120-128 the loop of [initialise_from_control_file]; [acc] is the
    matchup_list so far. *)
Fixpoint playoff_matchups (players : list bytes) (number : nat) (l : list matchup_config) (acc : list matchup)
  : res (list bytes * list matchup) :=
  match l with
  | [] => Ok (players, acc)
  | c :: rest =>
      do pm <- matchup_from_config players number c;
      let (players', m) := pm in
      if bmem (m_id m) (map m_id acc) then Err ControlFileError
      else playoff_matchups players' (S number) rest (acc ++ [m])
  end.

(** What the control file sets up: [self.players], [self.matchup_list] (and [self.matchups])
    and, for an all-play-all, [self.competitors]. *)
Record tconfig : Type := mkCf {
  cf_players : list bytes;
  cf_matchups : list matchup;
  cf_competitors : option (list bytes)
}.

Definition playoff_config (players : list bytes) (l : list matchup_config) : res tconfig :=
  match l with
  | [] => Err ControlFileError
  | _ => do pm <- playoff_matchups players 0 l []; Ok (mkCf (fst pm) (snd pm) None)
  end.

(** * All-play-alls *)

(** allplayalls.py:70-80 the [short_code] of competitor [i]. *)
Definition let_ (n : Z) : ascii := chr (65 + n).
Definition short_code (i : nat) : res bytes :=
  let i := Z.of_nat i in
  if i <? 26 then Ok [let_ i]
  else if i <? 26 * 27 then Ok [let_ (i / 26 - 1); let_ (i mod 26)]
  else Err ValueError.

(** allplayalls.py:86-87 [_get_matchup_id]. *)
Definition get_matchup_id (c1 c2 : bytes) : bytes := c1 ++ str "v" ++ c2.

(** allplayalls.py:105-122: the competitors, as (short code, player) pairs. *)
Fixpoint competitor_specs (players : list bytes) (i : nat) (l : list bytes) (seen : list bytes)
  : res (list (bytes * bytes)) :=
  match l with
  | [] => Ok []
  | p :: rest =>
      if negb (bmem p players) then Err ControlFileError
      else
        match short_code i with
        | Err _ => Err ControlFileError
        | Ok code =>
            if bmem p seen then Err ControlFileError
            else do tl <- competitor_specs players (S i) rest (p :: seen); Ok ((code, p) :: tl)
        end
  end.

(** allplayalls.py:127-139: the matchups of one competitor with the later ones, and of all. *)
Fixpoint matchups_with (rounds : option Z) (s : settings) (c1 : bytes * bytes) (l : list (bytes * bytes)) : res (list matchup) :=
  match l with
  | [] => Ok []
  | c2 :: rest =>
      match make_matchup (get_matchup_id (fst c1) (fst c2)) (snd c1) (snd c2) true rounds s with
      | Err _ => Err ControlFileError
      | Ok m => do tl <- matchups_with rounds s c1 rest; Ok (m :: tl)
      end
  end.
Fixpoint all_matchups (rounds : option Z) (s : settings) (l : list (bytes * bytes)) : res (list matchup) :=
  match l with
  | [] => Ok []
  | c1 :: rest =>
      do a <- matchups_with rounds s c1 rest;
      do b <- all_matchups rounds s rest;
      Ok (a ++ b)
  end.

(** allplayalls.py:87-139 [initialise_from_control_file]; handicaps are not among the
    settings, so they have their defaults (None, 'fixed'). *)
Definition allplayall_config (players competitors : list bytes) (rounds : option Z) (s : settings) : res tconfig :=
  match competitors with
  | [] => Err ControlFileError
  | _ =>
      do cs <- competitor_specs players 0 competitors [];
      do ms <- all_matchups rounds (mkSet (s_board_size s) (s_komi s) None false (s_move_limit s) (s_internal s) (s_compensation s)) cs;
      Ok (mkCf players ms (Some (map snd cs)))
  end.

(** allplayalls.py:186-196 [count_games_expected]. *)
Definition count_games_expected (cf : tconfig) : res (option Z) :=
  match cf_matchups cf with
  | [] => Err IndexError
  | m :: _ =>
      match m_games m, cf_competitors cf with
      | None, _ => Ok None
      | Some rounds, Some cs => let n := Z.of_nat (List.length cs) in Ok (Some (rounds * n * (n - 1) / 2))
      | Some _, None => Err AttributeError
      end
  end.

(** * Game results: gtp_games.py:8-84 *)
Record game_result : Type := mkGR {
  gr_player_b : bytes;
  gr_player_w : bytes;
  gr_winner : option colour;          (* winning_colour *)
  gr_sgf : bytes;                     (* sgf_result *)
  gr_detail : option bytes;
  gr_forfeit : bool;                  (* is_forfeit *)
  gr_id : option bytes;               (* game_id *)
  gr_cpu : dict (option num);         (* cpu_times *)
  gr_jigo : bool;                     (* is_jigo *)
  gr_winning_player : option bytes
}.

Definition player_of (b w : bytes) (c : option colour) : option bytes :=
  match c with None => None | Some Black => Some b | Some White => Some w end.

(** gtp_games.py:34-47 [set_players] on the result of a game ([game_id] is set by
    Gtp_game). *)
Definition make_game_result (r : result) (id : option bytes) (b w : bytes) : res game_result :=
  let winning := player_of b w (r_winner r) in
  do detail <-
    (if r_forfeit r then
       match player_of b w (r_loser r) with
       | None => Err KeyError
       | Some p => Ok (Some (str "forfeit by " ++ p ++ str ": " ++
                             match r_detail r with Some d => d | None => str "None" end))
       end
     else Ok (r_detail r));
  Ok (mkGR b w (r_winner r) (r_sgf r) detail (r_forfeit r) id (dset w None (dset b None [])) (r_jigo r) winning).

(** gameplay.py:338-339 [is_unknown]. *)
Definition gr_unknown (r : game_result) : bool :=
  match gr_winner r with None => negb (gr_jigo r) | Some _ => false end.

(** gtp_games.py:55-65 [__getstate__] and :67-84 [__setstate__] (cpu times '?' of old
    versions are not modelled). *)
Definition game_result_state : Type :=
  bytes * bytes * option colour * bytes * option bytes * bool * option bytes * dict (option num).
Definition game_result_getstate (r : game_result) : game_result_state :=
  (gr_player_b r, gr_player_w r, gr_winner r, gr_sgf r, gr_detail r, gr_forfeit r, gr_id r, gr_cpu r).
Definition game_result_setstate (s : game_result_state) : game_result :=
  let '(b, w, c, sgf, detail, forfeit, id, cpu) := s in
  mkGR b w c sgf detail forfeit id cpu (bytes_eqb sgf (str "0")) (player_of b w c).

(** * Matchup_stats: tournament_results.py:122-195.  Scores (floats that are multiples of
    0.5) are numbers of half points here. *)
Definition count {A} (f : A -> bool) (l : list A) : Z := Z.of_nat (List.length (filter f l)).

Definition option_bytes_eqb (a : option bytes) (b : bytes) : bool :=
  match a with None => false | Some x => bytes_eqb x b end.
Definition option_colour_eqb (a : option colour) (b : colour) : bool :=
  match a with None => false | Some x => colour_eqb x b end.

Record breakdown : Type := mkBr {
  wins_b : Z; wins_w : Z; wins_1b : Z; wins_1w : Z; wins_2b : Z; wins_2w : Z
}.
Record stats : Type := mkStats {
  total : Z;
  jigo_score : Z;
  unknown : Z;
  wins_1 : Z;
  wins_2 : Z;
  forfeits_1 : Z;
  forfeits_2 : Z;
  played_1b : Z;
  played_1w : Z;
  played_2b : Z;
  played_2w : Z;                          (* the code calls it played_y2 *)
  colours : option (colour * colour);     (* colour_1, colour_2 if not alternating *)
  by_colour : option breakdown            (* if alternating *)
}.

Definition matchup_stats (rs : list game_result) (p1 p2 : bytes) : stats :=
  let js := count gr_jigo rs in
  let won p r := option_bytes_eqb (gr_winning_player r) p in
  let won_as c r := option_colour_eqb (gr_winner r) c in
  let p1b := count (fun r => bytes_eqb (gr_player_b r) p1) rs in
  let p1w := count (fun r => bytes_eqb (gr_player_w r) p1) rs in
  let p2b := count (fun r => bytes_eqb (gr_player_b r) p2) rs in
  let p2w := count (fun r => bytes_eqb (gr_player_w r) p2) rs in
  let no_b := (p1w =? 0) && (p2b =? 0) in
  let no_w := (p1b =? 0) && (p2w =? 0) in
  mkStats (Z.of_nat (List.length rs)) js (count gr_unknown rs)
    (2 * count (won p1) rs + js) (2 * count (won p2) rs + js)
    (count (fun r => won p2 r && gr_forfeit r) rs) (count (fun r => won p1 r && gr_forfeit r) rs)
    p1b p1w p2b p2w
    (if no_b then Some (Black, White) else if no_w then Some (White, Black) else None)
    (if no_b || no_w then None else Some (mkBr
       (2 * count (won_as Black) rs + js) (2 * count (won_as White) rs + js)
       (2 * count (fun r => won p1 r && won_as Black r) rs + js)
       (2 * count (fun r => won p1 r && won_as White r) rs + js)
       (2 * count (fun r => won p2 r && won_as Black r) rs + js)
       (2 * count (fun r => won p2 r && won_as White r) rs + js))).

(** * Tournaments *)

(** game_jobs.py:96-160: the attributes of a Game_job that tournaments set (players by their
    codes; the SGF event name isn't modelled). *)
Record job : Type := mkJob {
  j_id : bytes;
  j_data : bytes * nat;
  j_player_b : bytes;
  j_player_w : bytes;
  j_board_size : Z;
  j_komi : num;
  j_move_limit : Z;
  j_handicap : option Z;
  j_handicap_is_free : bool;
  j_use_internal_scorer : bool;
  j_compensation : compensation
}.

(** game_jobs.py:82-94 [Game_job_result]; engine descriptions as (player code, short and long
    description). *)
Record response : Type := mkResp {
  rs_id : bytes;
  rs_data : bytes * nat;
  rs_result : game_result;
  rs_engines : list (bytes * (bytes * bytes))
}.

(** tournaments.py:119-131: the state attributes. *)
Record tourn : Type := mkT {
  t_config : tconfig;
  t_results : dict (list game_result);
  t_sched : gsched;
  t_names : dict bytes;
  t_descs : dict bytes;
  t_working : list bytes;
  t_prob : list bytes;
  t_ghosts : dict (bytes * bytes)
}.

(** What get_status returns, pickled: tournaments.py:190-196, allplayalls.py:145-148. *)
Record tstatus : Type := mkTS {
  ts_results : dict (list game_result_state);
  ts_sched : gstate;
  ts_names : dict bytes;
  ts_descs : dict bytes;
  ts_competitors : option (list bytes)
}.

Definition get_status (t : tourn) : tstatus :=
  mkTS (map (fun kv => (fst kv, map game_result_getstate (snd kv))) (t_results t))
       (gsched_getstate (t_sched t)) (t_names t) (t_descs t) (cf_competitors (t_config t)).

(** Reading [self.results[id]], a defaultdict, adds an empty list if there's no entry. *)
Definition touch (id : bytes) (d : dict (list game_result)) : dict (list game_result) :=
  match dget id d with Some _ => d | None => dset id [] d end.
Definition touch_all (ms : list matchup) (d : dict (list game_result)) : dict (list game_result) :=
  fold_left (fun d m => touch (m_id m) d) ms d.

(** [sorted] of two strings. *)
Definition sort2 (a b : bytes) : bytes * bytes := if bytes_ltb b a then (b, a) else (a, b).

(** tournaments.py:133-161 [_check_results], with the entries it adds. *)
Fixpoint check_results (ms : list matchup) (d : dict (list game_result)) : res (dict (list game_result)) :=
  match ms with
  | [] => Ok d
  | m :: rest =>
      let d' := touch (m_id m) d in
      match dget (m_id m) d' with
      | Some (r :: _) =>
          let seen := sort2 (gr_player_b r) (gr_player_w r) in
          let expected := sort2 (m_player_1 m) (m_player_2 m) in
          if bytes_eqb (fst seen) (fst expected) && bytes_eqb (snd seen) (snd expected)
          then check_results rest d' else Err CompetitionError
      | _ => check_results rest d'
      end
  end.

(** tournaments.py:163-173 [_set_ghost_matchups] ([results[0]] of an empty list is an
    IndexError). *)
Fixpoint ghost_matchups (live : list bytes) (d : dict (list game_result)) : res (dict (bytes * bytes)) :=
  match d with
  | [] => Ok []
  | (id, rs) :: rest =>
      if bmem id live then ghost_matchups live rest
      else
        match rs with
        | [] => Err IndexError
        | r :: _ => do tl <- ghost_matchups live rest; Ok ((id, (gr_player_b r, gr_player_w r)) :: tl)
        end
  end.

(** tournaments.py:175-178 [_set_scheduler_groups]: the argument of set_groups.  (The order
    of the ghosts is Python's dict order, here that of the results; nothing depends on it
    because their limit is 0.) *)
Definition group_specs (ms : list matchup) (ghosts : dict (bytes * bytes)) : list (bytes * option Z) :=
  map (fun m => (m_id m, m_games m)) ms ++ map (fun g => (fst g, Some 0)) ghosts.

(** tournaments.py:180-186 [set_clean_status] (and __init__). *)
Definition set_clean_status (cf : tconfig) : tourn :=
  mkT cf [] (set_groups new_gsched (group_specs (cf_matchups cf) [])) [] [] [] [] [].

(** tournaments.py:198-206 [set_status], after allplayalls.py:150-162; the status has been
    unpickled. *)
Definition set_status (cf : tconfig) (s : tstatus) : res tourn :=
  do _ <-
    match cf_competitors cf with
    | None => Ok tt
    | Some cs =>
        match ts_competitors s with
        | None => Err KeyError
        | Some seen =>
            if Nat.ltb (List.length cs) (List.length seen) then Err CompetitionError
            else if blist_eqb (firstn (List.length seen) cs) seen then Ok tt
            else Err CompetitionError
        end
    end;
  let results := map (fun kv => (fst kv, map game_result_setstate (snd kv))) (ts_results s) in
  do results' <- check_results (cf_matchups cf) results;
  do ghosts <- ghost_matchups (map m_id (cf_matchups cf)) results';
  let sched := set_groups (gsched_setstate (ts_sched s)) (group_specs (cf_matchups cf) ghosts) in
  Ok (mkT cf results' (grollback sched) (ts_names s) (ts_descs s) [] [] ghosts).

(** tournaments.py:209-237 [get_game]. *)
Definition find_matchup (cf : tconfig) (id : bytes) : option matchup :=
  dget id (map (fun m => (m_id m, m)) (cf_matchups cf)).

Definition make_job (m : matchup) (n : nat) : job :=
  let (b, w) := if m_alternating m && Nat.odd n then (m_player_2 m, m_player_1 m) else (m_player_1 m, m_player_2 m) in
  let s := m_settings m in
  mkJob (make_game_id m n) (m_id m, n) b w (s_board_size s) (s_komi s) (s_move_limit s) (s_handicap s)
        (s_free s) (s_internal s) (s_compensation s).

Definition with_sched (t : tourn) (g : gsched) : tourn :=
  mkT (t_config t) (t_results t) g (t_names t) (t_descs t) (t_working t) (t_prob t) (t_ghosts t).

Definition get_game (t : tourn) : tourn * res (option job) :=
  match gissue (t_sched t) with
  | (g, Err e) => (with_sched t g, Err e)
  | (g, Ok None) => (with_sched t g, Ok None)
  | (g, Ok (Some (id, n))) =>
      let t' := with_sched t g in
      match find_matchup (t_config t) id with
      | None => (t', Err KeyError)
      | Some m =>
          let j := make_job m n in
          if bmem (j_player_b j) (cf_players (t_config t)) && bmem (j_player_w j) (cf_players (t_config t))
          then (t', Ok (Some j)) else (t', Err KeyError)
      end
  end.

(** tournaments.py:236-248 [process_game_result].  An empty description is replaced by a
    standard text. *)
Definition or_text (a : bytes) (b : string) : bytes := match a with [] => str b | _ => a end.
Definition note_engines (l : list (bytes * (bytes * bytes))) (t : tourn) : tourn :=
  fold_left (fun t e =>
    mkT (t_config t) (t_results t) (t_sched t)
        (dset (fst e) (or_text (fst (snd e)) "[no name available]") (t_names t))
        (dset (fst e) (or_text (snd (snd e)) "[no description available]") (t_descs t))
        (t_working t) (t_prob t) (t_ghosts t)) l t.

Definition process_game_result (r : response) (t : tourn) : tourn * res unit :=
  let t1 := note_engines (rs_engines r) t in
  let (id, n) := rs_data r in
  let t2 := mkT (t_config t1) (t_results t1) (t_sched t1) (t_names t1) (t_descs t1)
                (badd id (t_working t1)) (bdiscard id (t_prob t1)) (t_ghosts t1) in
  match gfix (t_sched t2) id n with
  | (g, Err e) => (with_sched t2 g, Err e)
  | (g, Ok _) =>
      let old := match dget id (t_results t2) with Some l => l | None => [] end in
      (mkT (t_config t2) (dset id (old ++ [rs_result r]) (t_results t2)) g (t_names t2) (t_descs t2)
           (t_working t2) (t_prob t2) (t_ghosts t2), Ok tt)
  end.

(** tournaments.py:250-262 [process_game_error]: (stop_competition, retry_game). *)
Definition process_game_error (j : job) (t : tourn) : tourn * (bool * bool) :=
  let id := fst (j_data j) in
  if negb (bmem id (t_working t)) || bmem id (t_prob t) then (t, (true, false))
  else
    (mkT (t_config t) (t_results t) (t_sched t) (t_names t) (t_descs t) (t_working t)
         (badd id (t_prob t)) (t_ghosts t), (false, true)).

(** Writing any report (tournaments.py:291-305, allplayalls.py:198-239) reads
    [self.results[id]] for every matchup. *)
Definition write_report (t : tourn) : tourn :=
  mkT (t_config t) (touch_all (cf_matchups (t_config t)) (t_results t)) (t_sched t) (t_names t) (t_descs t)
      (t_working t) (t_prob t) (t_ghosts t).

(** tournament_results.py:76-84 [get_matchup_results]. *)
Definition get_matchup_results (t : tourn) (id : bytes) : list game_result :=
  match dget id (t_results t) with Some l => l | None => [] end.
