(** Model of the reports on tournaments: utils.py [format_percent], tournament_results.py
    [make_matchup_stats_table] and [write_matchup_summary], and the report writers of
    tournaments.py, playoffs.py and allplayalls.py. *)
From Verif Require Import Base Bytes PyStr Dict CommonModel SgfPropsModel SchedModel GtpModel GameplayModel TournModel TableModel.

Section Reports.
(** How ["%.2f"] resolves a tie (Python formats the binary64 number nearest to the quotient,
    so that depends on the quotient).  [tie n d]: round [n/d], which is half-way between two
    multiples of 1/100, up.  Simplification: other quotients are rounded exactly. *)
Variable tie : Z -> Z -> bool.

(** The nearest integer to [n/d], for [d > 0]. *)
Definition nearest (n d : Z) : Z :=
  let q := n / d in
  let r := n mod d in
  if 2 * r <? d then q
  else if d <? 2 * r then q + 1
  else if tie n d then q + 1 else q.

(** ["%.2f" % (n/d)], for [d > 0]. *)
Definition fixed2 (n d : Z) : bytes :=
  let q := nearest (100 * Z.abs n) d in
  (if n <? 0 then str "-" else []) ++ str_int (q / 100) ++ str "." ++ zfill 2 (str_int (q mod 100)).

(** utils.py:29-42 [format_percent], of [half] half points. *)
Definition format_percent (half baseline : Z) : bytes :=
  if baseline =? 0 then (if half =? 0 then str "--" else str "??")
  else fixed2 (50 * half) baseline ++ str "%".

(** utils.py:15-27 [format_float] of [half] half points. *)
Definition format_half (half : Z) : bytes := format_float (5 * half, 1%nat).

(** common.py:26-37 [colour_name]. *)
Definition colour_word (c : colour) : bytes := match c with Black => str "black" | White => str "white" end.

(** tournament_results.py:197-218 [calculate_time_stats], for one player: the total and the
    number of the known times.  A number [m / 10^k] has denominator [10^k]. *)
Definition num_add (a b : num) : num :=
  (fst a * 10 ^ Z.of_nat (snd b) + fst b * 10 ^ Z.of_nat (snd a), (snd a + snd b)%nat).
Fixpoint known_times (player : bytes) (rs : list game_result) : res (list num) :=
  match rs with
  | [] => Ok []
  | r :: rest =>
      match dget player (gr_cpu r) with
      | None => Err KeyError
      | Some t =>
          do l <- known_times player rest;
          Ok (match t with Some x => x :: l | None => l end)
      end
  end.
Definition average_time (player : bytes) (rs : list game_result) : res (option (Z * Z)) :=
  do l <- known_times player rs;
  Ok (match l with
      | [] => None
      | _ => let s := fold_left num_add l (0, O) in
             Some (fst s, 10 ^ Z.of_nat (snd s) * Z.of_nat (List.length l))
      end).

(** The truth value of an average. *)
Definition truthy (a : option (Z * Z)) : bool := match a with None => false | Some (n, _) => negb (n =? 0) end.

(** tournament_results.py:277-284. *)
Definition time_text (a : option (Z * Z)) : bytes :=
  match a with Some (n, d) => pad_left 7 (fixed2 n d) | None => str "   ----" end.

(** tournament_results.py:220-287 [make_matchup_stats_table]. *)
Definition stats_table (ms : stats) (p1 p2 : bytes) (avg_1 avg_2 : option (Z * Z)) : res table :=
  let t := new_table (Some 3) in
  let t := add_heading t [] 1 in
  let '(t, i) := add_column t ALeft 3 in
  let t := set_column_values t i [p1; p2] in
  let t := add_heading t (str "wins") 1 in
  let '(t, i) := add_column t ARight 1 in
  let t := set_column_values t i [format_half (wins_1 ms); format_half (wins_2 ms)] in
  let t := add_heading t [] 1 in
  let '(t, i) := add_column t ARight 1 in
  let t := set_column_values t i [format_percent (wins_1 ms) (total ms); format_percent (wins_2 ms) (total ms)] in
  do t <-
    match by_colour ms with
    | Some br =>
        do t <- set_padding t i 7;
        let t := add_heading t (str "black") 2 in
        let '(t, i) := add_column t ALeft 1 in
        let t := set_column_values t i [format_half (wins_1b br); format_half (wins_2b br); format_half (wins_b br)] in
        let '(t, i) := add_column t ARight 5 in
        let t := set_column_values t i [format_percent (wins_1b br) (played_1b ms);
                                        format_percent (wins_2b br) (played_2b ms);
                                        format_percent (wins_b br) (total ms)] in
        let t := add_heading t (str "white") 2 in
        let '(t, i) := add_column t ALeft 1 in
        let t := set_column_values t i [format_half (wins_1w br); format_half (wins_2w br); format_half (wins_w br)] in
        let '(t, i) := add_column t ARight 3 in
        Ok (set_column_values t i [format_percent (wins_1w br) (played_1w ms);
                                   format_percent (wins_2w br) (played_2w ms);
                                   format_percent (wins_w br) (total ms)])
    | None =>
        do t <- set_padding t i 3;
        let t := add_heading t [] 1 in
        let '(t, i) := add_column t ALeft 1 in
        match colours ms with
        | Some (c1, c2) =>
            Ok (set_column_values t i [str "(" ++ colour_word c1 ++ str ")"; str "(" ++ colour_word c2 ++ str ")"])
        | None => Err AttributeError
        end
    end;
  let t :=
    if negb (forfeits_1 ms =? 0) || negb (forfeits_2 ms =? 0) then
      let t := add_heading t (str "forfeits") 1 in
      let '(t, i) := add_column t ARight 1 in
      set_column_values t i [str_int (forfeits_1 ms); str_int (forfeits_2 ms)]
    else t in
  Ok (if truthy avg_1 || truthy avg_2 then
        let t := add_heading t (str "avg cpu") 1 in
        let '(t, i) := add_column t ARight 2 in
        set_column_values t i [time_text avg_1; time_text avg_2]
      else t).

(** ["%s" % f] for a float [f] (exponents are not modelled). *)
Definition str_float (f : num) : bytes :=
  let s := format_float f in
  match snd (normalise_dec (fst f) (snd f)) with O => s ++ str ".0" | _ => s end.

(** tournament_results.py:32-43 [Matchup_description.describe_details]. *)
Definition describe_details (s : settings) : bytes :=
  str "board size: " ++ str_int (s_board_size s) ++ str "   " ++
  (match s_handicap s with
   | Some h => str "handicap: " ++ str_int h ++ str " (" ++ (if s_free s then str "free" else str "fixed") ++ str ")   "
   | None => []
   end) ++
  str "komi: " ++ str_float (s_komi s).

(** What the reports use of a Matchup or a Ghost_matchup: tournaments.py:46-95. *)
Record described : Type := mkDesc {
  d_name : bytes;
  d_player_1 : bytes;
  d_player_2 : bytes;
  d_games : option Z;
  d_details : bytes
}.
Definition describe_matchup (given : option bytes) (m : matchup) : described :=
  mkDesc (match given with Some n => n | None => m_player_1 m ++ str " v " ++ m_player_2 m end)
         (m_player_1 m) (m_player_2 m) (m_games m) (describe_details (m_settings m)).
Definition describe_ghost (p : bytes * bytes) : described :=
  mkDesc (fst p ++ str " v " ++ snd p) (fst p) (snd p) None (str "?? (missing from control file)").

(** [print >>out, s]. *)
Definition say (s : bytes) : bytes := s ++ [char_lf].

(** tournament_results.py:289-311 [write_matchup_summary]: the text written to [out]. *)
Definition matchup_summary (d : described) (ms : stats) (avg_1 avg_2 : option (Z * Z)) : res bytes :=
  let played := str_int (total ms) ++ match d_games d with Some n => str "/" ++ str_int n | None => [] end in
  let head := say (d_name d ++ str " (" ++ played ++ str " games)") in
  let unk := if 0 <? unknown ms
             then say (str "unknown results: " ++ str_int (unknown ms) ++ str " " ++ format_percent (2 * unknown ms) (total ms))
             else [] in
  do t <- stats_table ms (d_player_1 d) (d_player_2 d) avg_1 avg_2;
  do lines <- render t;
  Ok (head ++ unk ++ say (d_details d) ++ say (join [char_lf] lines)).

(** tournaments.py:264-281 [write_matchup_report]. *)
Definition matchup_report (d : described) (rs : list game_result) : res bytes :=
  do a1 <- average_time (d_player_1 d) rs;
  do a2 <- average_time (d_player_2 d) rs;
  matchup_summary d (matchup_stats rs (d_player_1 d) (d_player_2 d)) a1 a2.

(** tournaments.py:283-298 [write_matchup_reports].  [given]: the names given to matchups in
    the control file. *)
Fixpoint matchup_reports (given : bytes -> option bytes) (t : tourn) (first : bool) (ms : list matchup) : res bytes :=
  match ms with
  | [] => Ok []
  | m :: rest =>
      match get_matchup_results t (m_id m) with
      | [] => matchup_reports given t first rest
      | r :: rs =>
          do a <- matchup_report (describe_matchup (given (m_id m)) m) (r :: rs);
          do b <- matchup_reports given t false rest;
          Ok ((if first then [] else say []) ++ a ++ b)
      end
  end.

(** [sorted(d.items())] by key, for string keys. *)
Fixpoint insert_key {A} (x : bytes * A) (l : list (bytes * A)) : list (bytes * A) :=
  match l with
  | [] => [x]
  | y :: r => if bytes_ltb (fst y) (fst x) then y :: insert_key x r else x :: l
  end.
Definition sort_keys {A} (l : list (bytes * A)) : list (bytes * A) := fold_right insert_key [] l.

(** tournaments.py:300-309 [write_ghost_matchup_reports]. *)
Fixpoint ghost_reports (t : tourn) (l : list (bytes * (bytes * bytes))) : res bytes :=
  match l with
  | [] => Ok []
  | (id, p) :: rest =>
      do a <- matchup_report (describe_ghost p) (get_matchup_results t id);
      do b <- ghost_reports t rest;
      Ok (say [] ++ a ++ b)
  end.

(** tournaments.py:311-314 [write_player_descriptions]. *)
Definition player_descriptions (t : tourn) : bytes :=
  List.concat (map (fun cd => say (str "player " ++ fst cd ++ str ": " ++ snd cd)) (sort_keys (t_descs t))).

(** playoffs.py:162-180 [write_screen_report] and [write_short_report]. *)
Definition playoff_screen_report (given : bytes -> option bytes) (t : tourn) : res bytes :=
  matchup_reports given t true (cf_matchups (t_config t)).
Definition playoff_short_report (code : bytes) (description : option bytes) (given : bytes -> option bytes) (t : tourn) : res bytes :=
  do a <- playoff_screen_report given t;
  do b <- ghost_reports t (sort_keys (t_ghosts t));
  Ok (say (str "playoff: " ++ code) ++
      (match description with Some (c :: r) => say (c :: r) | _ => [] end) ++
      say [] ++ a ++ b ++ say [] ++ player_descriptions t ++ say []).

(** allplayalls.py:181-183 [count_games_played]. *)
Definition count_games_played (t : tourn) : Z :=
  fold_right Z.add 0 (map (fun kv => Z.of_nat (List.length (snd kv))) (t_results t)).

(** allplayalls.py:216-238: one cell of the table. *)
Definition cross_cell (t : tourn) (code1 code2 : bytes) (i1 i2 : nat) : res bytes :=
  if Nat.eqb i1 i2 then Ok []
  else
    let before := Nat.ltb i1 i2 in
    let id := if before then get_matchup_id code1 code2 else get_matchup_id code2 code1 in
    match find_matchup (t_config t) id with
    | None => Err KeyError
    | Some m =>
        let px := if before then m_player_1 m else m_player_2 m in
        let py := if before then m_player_2 m else m_player_1 m in
        let ms := matchup_stats (get_matchup_results t (m_id m)) px py in
        Ok (format_half (wins_1 ms) ++ str "-" ++ format_half (wins_2 ms))
    end.

(** [enumerate(l)]. *)
Definition enumerate {A} (l : list A) : list (nat * A) := combine (seq 0 (List.length l)) l.

(** allplayalls.py:212-239: the columns of the competitors [l]. *)
Fixpoint cross_columns (t : tourn) (all l : list (nat * (bytes * bytes))) (tb : table) : res table :=
  match l with
  | [] => Ok tb
  | (i2, c2) :: rest =>
      let tb := add_heading tb (str " " ++ fst c2) 1 in
      let '(tb, i) := add_column tb ALeft 1 in
      do values <- map_res (fun ic => cross_cell t (fst (snd ic)) (fst c2) (fst ic) i2) all;
      cross_columns t all rest (set_column_values tb i values)
  end.

(** allplayalls.py:204-239: the table.  [cs]: the competitors' short codes and players. *)
Definition cross_table (t : tourn) (cs : list (bytes * bytes)) : res table :=
  let tb := add_heading (new_table (Some (Z.of_nat (List.length cs)))) [] 1 in
  let '(tb, i) := add_column tb ALeft 1 in
  let tb := set_column_values tb i (map fst cs) in
  let tb := add_heading tb [] 1 in
  let '(tb, i) := add_column tb ALeft 1 in
  let tb := set_column_values tb i (map snd cs) in
  cross_columns t (enumerate cs) (enumerate cs) tb.

(** The competitors with their short codes (allplayalls.py:70-81). *)
Fixpoint with_codes (i : nat) (l : list bytes) : res (list (bytes * bytes)) :=
  match l with
  | [] => Ok []
  | p :: r => do c <- short_code i; do tl <- with_codes (S i) r; Ok ((c, p) :: tl)
  end.

(** allplayalls.py:197-240 [write_screen_report]. *)
Definition allplayall_screen_report (t : tourn) : res bytes :=
  match cf_competitors (t_config t) with
  | None => Err AttributeError
  | Some players =>
      do expected <- count_games_expected (t_config t);
      let played := str_int (count_games_played t) in
      do cs <- with_codes 0 players;
      do tb <- cross_table t cs;
      do lines <- render tb;
      Ok (say (played ++ (match expected with Some n => str "/" ++ str_int n | None => [] end) ++ str " games played") ++
          say [] ++ say (join [char_lf] lines))
  end.

(** allplayalls.py:242-256 [write_short_report]. *)
Definition allplayall_short_report (code : bytes) (description : option bytes) (t : tourn) : res bytes :=
  do a <- allplayall_screen_report t;
  do b <- matchup_reports (fun _ => None) t true (cf_matchups (t_config t));
  Ok (say (str "allplayall: " ++ code) ++
      (match description with Some (c :: r) => say (c :: r) | _ => [] end) ++
      say [] ++ a ++ say [] ++ b ++ say [] ++ player_descriptions t ++ say []).

End Reports.
