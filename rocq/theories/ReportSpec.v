(** What the reports on tournaments are to say. *)
From Coq Require Import QArith Permutation.
From Verif Require Import Base Bytes PyStr Dict CommonModel SgfPropsModel SchedModel GameplayModel GameplaySpec TournModel TournSpec TableModel TableSpec ReportModel.
Open Scope Z_scope.

(** ** Numbers as texts *)

(** [s] is the decimal for [half] half points. *)
Definition shows_half (half : Z) (s : bytes) : Prop :=
  exists n, 0 <= n /\ (half = 2 * n /\ s = str_int n \/ half = 2 * n + 1 /\ s = str_int n ++ str ".5").

(** [s] is a decimal with two places, as near as possible to [n/d]. *)
Definition shows_places (n d : Z) (s : bytes) : Prop :=
  exists q t, 0 <= q /\ 2 * Z.abs (q * d - 100 * n) <= d /\
    s = str_int (q / 100) ++ str "." ++ t /\ List.length t = 2%nat /\
    Forall (fun c => is_digit c = true) t /\ digits_val t = q mod 100.

(** [s] is the percentage that [half] half points are of [n] games. *)
Definition shows_percent (half n : Z) (s : bytes) : Prop :=
  (n = 0 /\ half = 0 /\ s = str "--") \/ (n = 0 /\ half <> 0 /\ s = str "??") \/
  (n <> 0 /\ exists t, shows_places (50 * half) n t /\ s = t ++ str "%").

(** [s] is the mean of the numbers [l], with two places. *)
Definition sum_of (l : list num) : Q := fold_right (fun x q => (value x + q)%Q) 0%Q l.
Definition shows_mean (l : list num) (s : bytes) : Prop :=
  exists n d, 0 < d /\ (inject_Z n / inject_Z d == sum_of l / inject_Z (Z.of_nat (List.length l)))%Q /\
    (0 <= n /\ shows_places n d s \/ n < 0 /\ exists t, shows_places (- n) d t /\ s = str "-" ++ t).
Definition shows_time (l : list num) (s : bytes) : Prop :=
  (l = [] /\ s = str "----") \/ (l <> [] /\ shows_mean l s).

(** The cpu times known for a player. *)
Definition times_of (p : bytes) (rs : list game_result) : list num :=
  flat_map (fun r => match dget p (gr_cpu r) with Some (Some x) => [x] | _ => [] end) rs.

(** ** Counting games *)
Definition games_such (f : game_result -> Prop) (rs : list game_result) (n : Z) : Prop :=
  exists l, n = Z.of_nat (List.length l) /\ NoDup l /\
    forall i, In i l <-> exists r, nth_error rs i = Some r /\ f r.

(** [h] half points: 2 for each game won, 1 for each jigo. *)
Definition points (won : game_result -> Prop) (rs : list game_result) (h : Z) : Prop :=
  exists a b, games_such won rs a /\ games_such (fun r => gr_jigo r = true) rs b /\ h = 2 * a + b.
Definition won_by (p : bytes) (r : game_result) : Prop := gr_winning_player r = Some p.
Definition won_with (c : colour) (r : game_result) : Prop := gr_winner r = Some c.
Definition plays (c : colour) (p : bytes) (r : game_result) : Prop :=
  match c with Black => gr_player_b r = p | White => gr_player_w r = p end.

(** The words for one colour: the points with that colour, and the percentage of the games
    played with it. *)
Definition colour_says (won played : game_result -> Prop) (rs : list game_result) (ws : list bytes) : Prop :=
  exists h n a b, points won rs h /\ games_such played rs n /\ shows_half h a /\ shows_percent h n b /\ ws = [a; b].

(** The words of the line for player [p], whose opponent is [o]: the code; the wins and their
    percentage; those with each colour, or the colour if it's always the same; the forfeits, if
    there are any at all; and the mean cpu time, if any is known that isn't zero. *)
Definition both_colours (p o : bytes) (rs : list game_result) : Prop :=
  (exists r, In r rs /\ (gr_player_b r = p \/ gr_player_w r = o)) /\
  (exists r, In r rs /\ (gr_player_w r = p \/ gr_player_b r = o)).
Definition any_forfeit (p o : bytes) (rs : list game_result) : Prop :=
  exists r, In r rs /\ gr_forfeit r = true /\ (won_by p r \/ won_by o r).
Definition any_time (p o : bytes) (rs : list game_result) : Prop :=
  ~ (sum_of (times_of p rs) == 0)%Q \/ ~ (sum_of (times_of o rs) == 0)%Q.
Definition player_says (p o : bytes) (rs : list game_result) (ws : list bytes) : Prop :=
  exists h a b c d e,
    points (won_by p) rs h /\ shows_half h a /\ shows_percent h (Z.of_nat (List.length rs)) b /\
    ((both_colours p o rs /\ exists c1 c2,
        colour_says (fun r => won_by p r /\ won_with Black r) (plays Black p) rs c1 /\
        colour_says (fun r => won_by p r /\ won_with White r) (plays White p) rs c2 /\ c = c1 ++ c2) \/
     (~ both_colours p o rs /\ exists w,
        (forall r, In r rs -> ~ plays (opponent_of w) p r /\ ~ plays w o r) /\
        c = [match w with Black => str "(black)" | White => str "(white)" end])) /\
    ((any_forfeit p o rs /\ exists n, games_such (fun r => won_by o r /\ gr_forfeit r = true) rs n /\ d = [str_int n]) \/
     (~ any_forfeit p o rs /\ d = [])) /\
    ((any_time p o rs /\ exists s, shows_time (times_of p rs) s /\ e = [s]) \/ (~ any_time p o rs /\ e = [])) /\
    ws = p :: a :: b :: c ++ d ++ e.

(** The last line, when both play both colours: the wins of each colour. *)
Definition colours_say (rs : list game_result) (ws : list bytes) : Prop :=
  exists c1 c2, colour_says (won_with Black) (fun _ => True) rs c1 /\ colour_says (won_with White) (fun _ => True) rs c2 /\
    ws = c1 ++ c2.

Definition title_says (p o : bytes) (rs : list game_result) (ws : list bytes) : Prop :=
  exists c d e,
    ((both_colours p o rs /\ c = [str "black"; str "white"]) \/ (~ both_colours p o rs /\ c = [])) /\
    ((any_forfeit p o rs /\ d = [str "forfeits"]) \/ (~ any_forfeit p o rs /\ d = [])) /\
    ((any_time p o rs /\ e = [str "avg"; str "cpu"]) \/ (~ any_time p o rs /\ e = [])) /\
    ws = str "wins" :: c ++ d ++ e.

(** The lines of the table for a matchup. *)
Definition table_says (p1 p2 : bytes) (rs : list game_result) (lines : list bytes) : Prop :=
  exists title l1 l2 more wt w1 w2,
    lines = title :: l1 :: l2 :: more /\
    reads title wt /\ title_says p1 p2 rs wt /\
    reads l1 w1 /\ player_says p1 p2 rs w1 /\
    reads l2 w2 /\ player_says p2 p1 rs w2 /\
    ((both_colours p1 p2 rs /\ exists l3 w3, more = [l3] /\ reads l3 w3 /\ colours_say rs w3) \/
     (~ both_colours p1 p2 rs /\ more = [])).

(** The report on a matchup with results [rs]. *)
Definition ended (lines : list bytes) : bytes := List.concat (map (fun l => l ++ [char_lf]) lines).
Definition summary_says (d : described) (rs : list game_result) (text : bytes) : Prop :=
  exists u table,
    table_says (d_player_1 d) (d_player_2 d) rs table /\
    (exists n, games_such (fun r => gr_winner r = None /\ gr_jigo r = false) rs n /\
       (n = 0 /\ u = [] \/
        0 < n /\ exists s, shows_percent (2 * n) (Z.of_nat (List.length rs)) s /\
          u = [str "unknown results: " ++ str_int n ++ str " " ++ s])) /\
    text = ended ([d_name d ++ str " (" ++ str_int (Z.of_nat (List.length rs)) ++
                     (match d_games d with Some k => str "/" ++ str_int k | None => [] end) ++ str " games)"] ++
                  u ++ [d_details d] ++ table).

(** Player codes are words. *)
Definition word (p : bytes) : Prop := p <> [] /\ Forall (fun c => ~ white c) p.

(** Results that have a cpu time, perhaps unknown, for the player. *)
Definition has_times (p : bytes) (rs : list game_result) : Prop :=
  Forall (fun r => exists t, dget p (gr_cpu r) = Some t) rs.

(** ** Whole reports *)

(** [l] in the order of the keys. *)
Definition by_key {A} (l sorted : list (bytes * A)) : Prop :=
  Permutation l sorted /\
  forall i j x y, (i < j)%nat -> nth_error sorted i = Some x -> nth_error sorted j = Some y -> bytes_ltb (fst y) (fst x) = false.

(** What is said about a matchup: its name, or else the players; the number of games asked for;
    and the settings. *)
Definition handicap_says (h : option Z) (free : bool) (text : bytes) : Prop :=
  match h with
  | None => text = []
  | Some n => text = str "handicap: " ++ str_int n ++ (if free then str " (free)   " else str " (fixed)   ")
  end.
Definition komi_says (komi : num) (text : bytes) : Prop :=
  In "."%char text /\ exists x, py_float text = Ok x /\ (value x == value komi)%Q.
Definition matchup_says (given : option bytes) (m : matchup) (d : described) : Prop :=
  (given = Some (d_name d) \/ given = None /\ d_name d = m_player_1 m ++ str " v " ++ m_player_2 m) /\
  d_player_1 d = m_player_1 m /\ d_player_2 d = m_player_2 m /\ d_games d = m_games m /\
  exists h k, handicap_says (s_handicap (m_settings m)) (s_free (m_settings m)) h /\ komi_says (s_komi (m_settings m)) k /\
    d_details d = str "board size: " ++ str_int (s_board_size (m_settings m)) ++ str "   " ++ h ++ str "komi: " ++ k.
Definition ghost_says (p : bytes * bytes) (d : described) : Prop :=
  d = mkDesc (fst p ++ str " v " ++ snd p) (fst p) (snd p) None (str "?? (missing from control file)").

(** The matchups that have results, with the results, in order. *)
Definition live_matchups (t : tourn) : list matchup :=
  filter (fun m => negb (Nat.eqb (List.length (get_matchup_results t (m_id m))) 0)) (cf_matchups (t_config t)).
Definition live_says (given : bytes -> option bytes) (t : tourn) (text : bytes) : Prop :=
  exists parts,
    Forall2 (fun m part => exists d, matchup_says (given (m_id m)) m d /\ summary_says d (get_matchup_results t (m_id m)) part)
            (live_matchups t) parts /\
    text = join [char_lf] parts.
Definition ghosts_say (t : tourn) (text : bytes) : Prop :=
  exists sorted parts,
    by_key (t_ghosts t) sorted /\
    Forall2 (fun g part => exists d, ghost_says (snd g) d /\ summary_says d (get_matchup_results t (fst g)) part) sorted parts /\
    text = List.concat (map (fun p => [char_lf] ++ p) parts).
Definition players_say (t : tourn) (text : bytes) : Prop :=
  exists sorted, by_key (t_descs t) sorted /\
    text = ended (map (fun cd => str "player " ++ fst cd ++ str ": " ++ snd cd) sorted).

(** The results can be reported on: the players' codes are words, and the results are those of
    their games. *)
Definition reportable (t : tourn) : Prop :=
  (forall m, In m (cf_matchups (t_config t)) -> word (m_player_1 m) /\ word (m_player_2 m) /\
     has_times (m_player_1 m) (get_matchup_results t (m_id m)) /\ has_times (m_player_2 m) (get_matchup_results t (m_id m))) /\
  (forall id p, In (id, p) (t_ghosts t) -> word (fst p) /\ word (snd p) /\
     has_times (fst p) (get_matchup_results t id) /\ has_times (snd p) (get_matchup_results t id)).

(** The table of an all-play-all. *)
Definition cross_says (t : tourn) (cs : list (bytes * bytes)) (tb : table) : Prop :=
  tb_headings tb = [([], 1%nat); ([], 1%nat)] ++ map (fun c => (str " " ++ fst c, 1%nat)) cs /\
  tb_columns tb = repeat (mkCol ALeft 1) (2 + List.length cs) /\
  tb_rows tb = Some (Z.of_nat (List.length cs)) /\
  forall i ci pi, nth_error cs i = Some (ci, pi) ->
    cell tb i 0 = ci /\ cell tb i 1 = pi /\ cell tb i (2 + i) = [] /\
    forall j cj pj, nth_error cs j = Some (cj, pj) -> i <> j ->
      exists m a b ha hb, In m (cf_matchups (t_config t)) /\
        (m_player_1 m = pi /\ m_player_2 m = pj \/ m_player_1 m = pj /\ m_player_2 m = pi) /\
        points (won_by pi) (get_matchup_results t (m_id m)) ha /\ shows_half ha a /\
        points (won_by pj) (get_matchup_results t (m_id m)) hb /\ shows_half hb b /\
        cell tb i (2 + j) = a ++ str "-" ++ b.

(** The report on the screen for an all-play-all: the number of games played (and the number
    expected, [n] for each matchup) and the table. *)
Definition codes_of (competitors : list bytes) (cs : list (bytes * bytes)) : Prop :=
  map snd cs = competitors /\ forall i c p, nth_error cs i = Some (c, p) -> short_code i = Ok c.
Definition games_played (t : tourn) (n : Z) : Prop :=
  n = Z.of_nat (List.length (List.concat (map snd (t_results t)))).
Definition screen_says (t : tourn) (competitors : list bytes) (rounds : option Z) (text : bytes) : Prop :=
  exists cs tb lines n,
    codes_of competitors cs /\ cross_says t cs tb /\ rendering tb lines /\ games_played t n /\
    text = ended ([str_int n ++
                     (match rounds with
                      | Some k => str "/" ++ str_int (k * Z.of_nat (List.length (cf_matchups (t_config t))))
                      | None => [] end) ++ str " games played"; []] ++ lines).

(** The headers of the reports. *)
Definition describing (kind code : bytes) (description : option bytes) : list bytes :=
  [kind ++ str ": " ++ code] ++ (match description with Some (c :: r) => [c :: r] | _ => [] end) ++ [[]].

(** ** Tournaments that can be reported on *)

(** Histories in which matchup [id] is always between the players [who id], whatever the
    control files: results come from games between them. *)
Definition between (who : bytes -> bytes * bytes) (id a b : bytes) : Prop := who id = (a, b) \/ who id = (b, a).
Definition timed_result (r : game_result) : Prop :=
  (exists t, dget (gr_player_b r) (gr_cpu r) = Some t) /\ (exists t, dget (gr_player_w r) (gr_cpu r) = Some t).
Definition sensible (who : bytes -> bytes * bytes) (e : tevent) : Prop :=
  match e with
  | TStart cf => forall m, In m (cf_matchups cf) -> between who (m_id m) (m_player_1 m) (m_player_2 m)
  | TResult r => between who (fst (rs_data r)) (gr_player_b (rs_result r)) (gr_player_w (rs_result r)) /\ timed_result (rs_result r)
  | _ => True
  end.
