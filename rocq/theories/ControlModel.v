(** Model of what the competitions make of a control file: gomill/competitions.py,
    gomill/playoffs.py, gomill/allplayalls.py, gomill/cem_tuners.py and gomill/mcts_tuners.py,
    [initialise_from_control_file] and what it calls.  The control file has been executed;
    its namespace is a dict of values. *)
From Coq Require Import QArith Qround.
From Verif Require Import Base Bytes PyStr Dict CommonModel GameplayModel TournModel SettingsModel.
From Verif Require GtpModel MctsModel CemModel.
Open Scope Z_scope.

(** What surrounds the code: shlex.split; os.path.expanduser (None: an exception); the base
    directory (None: not set); ["%s" % v] (which can raise, if [v] is a tuple) and [str(v)];
    the texts of exceptions. *)
Record environment : Type := mkEn {
  en_shlex : bytes -> list bytes + bytes;
  en_expanduser : bytes -> option bytes;
  en_base : option bytes;
  en_show : pyval -> sres bytes;
  en_text : pyval -> bytes;
  en_error : exn -> bytes;
  en_key : bytes
}.

(** [str(e)]. *)
Definition error_text (en : environment) (e : serr) : bytes :=
  match e with SValue m | SControl m => m | SKey => en_key en | SOther x => en_error en x end.

(** [except ValueError, e: raise ControlFileError(str(e))]. *)
Definition control_error {A} (m : sres A) : sres A :=
  match m with Bad (SValue t) => Bad (SControl t) | _ => m end.
(** [except Exception, e: raise ControlFileError(prefix + str(e))]; the same for StandardError. *)
Definition any_error {A} (en : environment) (prefix : bytes) (m : sres A) : sres A :=
  match m with Bad e => Bad (SControl (prefix ++ error_text en e)) | _ => m end.

(** ** Values that have been interpreted.  (TypeError never happens: see the proofs.) *)
Definition wrong {A} : sres A := Bad (SOther TypeError).
Definition as_int (v : pyval) : sres Z := match int_of v with Some z => Good z | None => wrong end.
Definition as_bool (v : pyval) : sres bool := match v with VBool b => Good b | _ => wrong end.
Definition as_float (v : pyval) : sres pyfloat := match v with VFloat f => Good f | _ => wrong end.
Definition as_fun (v : pyval) : sres nat := match v with VFun n => Good n | _ => wrong end.
(** A string, or a unicode string of ASCII characters, which is equal to it and has the same
    hash value. *)
Definition key_text (v : pyval) : option bytes :=
  match v with VStr s => Some s | VUni u => encode_ascii u | _ => None end.
Definition as_text (v : pyval) : sres bytes := match key_text v with Some s => Good s | None => wrong end.
Definition as_option {A} (f : pyval -> sres A) (v : pyval) : sres (option A) :=
  match v with VNone => Good None | _ => try x <- f v; Good (Some x) end.
Fixpoint map_s {A B} (f : A -> sres B) (l : list A) : sres (list B) :=
  match l with
  | [] => Good []
  | x :: rest => try y <- f x; try r <- map_s f rest; Good (y :: r)
  end.
(** [for a, b in v]. *)
Definition unpack2 (v : pyval) : sres (pyval * pyval) :=
  match list_of v with Some [a; b] => Good (a, b) | Some _ => bad "unpack" | None => wrong end.
Definition pairs_in (v : pyval) : sres (list (pyval * pyval)) :=
  match list_of v with Some l => map_s unpack2 l | None => wrong end.
(** [d[name]]. *)
Definition get (name : string) (d : dict pyval) : sres pyval :=
  match dget (str name) d with Some v => Good v | None => Bad SKey end.

(** ** Players *)

(** game_jobs.py:12-46 [Player]. *)
Record player : Type := mkPlayer {
  p_code : bytes;
  p_cmd_args : list bytes;
  p_cwd : option bytes;
  p_environ : option (list (bytes * bytes));
  p_reliable : bool;                             (* is_reliable_scorer *)
  p_claim : bool;                                (* allow_claim *)
  p_discard : bool;                              (* discard_stderr *)
  p_sgf_name : bool;                             (* sgf_player_name_from_gtp *)
  p_startup : list (bytes * list bytes);         (* startup_gtp_commands *)
  p_aliases : dict bytes                         (* gtp_aliases *)
}.

(** game_jobs.py:64-80 [copy]. *)
Definition copy_player (p : player) (code : bytes) : player :=
  mkPlayer code (p_cmd_args p) (p_cwd p) (p_environ p) (p_reliable p) (p_claim p) (p_discard p)
           (p_sgf_name p) (p_startup p) (p_aliases p).

Definition map_of_strings : interpreter := interpret_map_of interpret_8bit_string interpret_8bit_string.

(** competitions.py:37-55 [_player_settings]. *)
Definition player_settings (en : environment) : list setting := [
  mkSetting (str "command") (interpret_shlex_sequence (en_shlex en)) None;
  mkSetting (str "cwd") (allow_none interpret_8bit_string) (Some VNone);
  mkSetting (str "environ") (allow_none map_of_strings) (Some VNone);
  mkSetting (str "is_reliable_scorer") interpret_bool (Some (VBool true));
  mkSetting (str "allow_claim") interpret_bool (Some (VBool false));
  mkSetting (str "gtp_aliases") (allow_none map_of_strings) (Some (VDict []));
  mkSetting (str "startup_gtp_commands") (allow_none interpret_sequence) (Some (VList []));
  mkSetting (str "discard_stderr") interpret_bool (Some (VBool false));
  mkSetting (str "sgf_player_name_from_gtp") interpret_bool (Some (VBool true))].

(** competitions.py:57-62 [Player_config]. *)
Definition player_class (en : environment) : qclass :=
  mkQC (str "Player") [str "command"] (map st_name (player_settings en)).

Definition is_slash (c : ascii) : bool := ceqb c "/"%char.

(** [os.path.join(a, b)], on POSIX; None: an exception. *)
Definition path_join (a : option bytes) (b : bytes) : option bytes :=
  if match b with c :: _ => is_slash c | [] => false end then Some b
  else
    match a with
    | None => None
    | Some a =>
        if match rev a with [] => true | c :: _ => is_slash c end then Some (a ++ b)
        else Some (a ++ str "/" ++ b)
    end.

(** competitions.py:96-123 [resolve_pathname], of a string. *)
Definition resolve_pathname (en : environment) (pathname : bytes) : sres bytes :=
  match pathname with
  | [] => bad "empty pathname"
  | _ =>
      match en_expanduser en pathname with
      | None => bad "bad pathname"
      | Some p =>
          match path_join (en_base en) p with
          | None => bad "relative path supplied but base directory isn't set"
          | Some r => Good r
          end
      end
  end.

(** gtp_controller.py:60-70 [is_well_formed_gtp_word]. *)
Definition gtp_word (v : pyval) : option bytes :=
  match v with VStr s => if GtpModel.is_well_formed_gtp_word s then Some s else None | _ => None end.
Fixpoint gtp_words (l : list pyval) : option (list bytes) :=
  match l with
  | [] => Some []
  | v :: rest => match gtp_word v, gtp_words rest with Some w, Some ws => Some (w :: ws) | _, _ => None end
  end.

(** competitions.py:262-271: the words of one startup command; None: an exception, which
    becomes a ValueError. *)
Definition startup_words (v : pyval) : option (list bytes) :=
  match v with
  | VStr _ | VUni _ =>
      match interpret_8bit_string v with
      | Good (VStr s) => gtp_words (map VStr (GtpModel.split_ws s))
      | _ => None
      end
  | _ => match list_of v with Some l => gtp_words l | None => None end
  end.
(** competitions.py:261-272: the loop. *)
Fixpoint startup_commands (en : environment) (l : list pyval) : sres (list (bytes * list bytes)) :=
  match l with
  | [] => Good []
  | v :: rest =>
      match startup_words v with
      | None => try t <- en_show en v; Bad (SValue (str "invalid command " ++ t))
      | Some [] => Bad (SOther IndexError)
      | Some (w :: ws) => try r <- startup_commands en rest; Good ((w, ws) :: r)
      end
  end.
(** competitions.py:277-284: the loop over the aliases. *)
Fixpoint add_aliases (l : list (pyval * pyval)) (d : dict bytes) : sres (dict bytes) :=
  match l with
  | [] => Good d
  | (cmd1, cmd2) :: rest =>
      try a <- as_text cmd1;
      try b <- as_text cmd2;
      if negb (GtpModel.is_well_formed_gtp_word a) then Bad (SValue (str "invalid command " ++ clean_string a))
      else if negb (GtpModel.is_well_formed_gtp_word b) then Bad (SValue (str "invalid command " ++ clean_string b))
      else add_aliases rest (dset a b d)
  end.

(** [except ValueError, e: raise ControlFileError(prefix + str(e))]. *)
Definition value_control {A} (prefix : bytes) (m : sres A) : sres A :=
  match m with Bad (SValue t) => Bad (SControl (prefix ++ t)) | _ => m end.

Definition both_texts (p : pyval * pyval) : sres (bytes * bytes) :=
  try a <- as_text (fst p); try b <- as_text (snd p); Good (a, b).

(** competitions.py:225-288 [game_jobs_player_from_config]; [args], [kwargs]: those of the
    Player_config. *)
Definition player_from_config (en : environment) (code : bytes) (args : list pyval) (kwargs : list (bytes * pyval))
  : sres player :=
  try arguments <- resolve_arguments (player_class en) args kwargs;
  try config <- load_settings (player_settings en) arguments true false;
  try cmd_args <- any_error en (str "'command': ") (
    try v <- get "command" config;
    try l <- match list_of v with Some l => map_s as_text l | None => wrong end;
    match l with
    | [] => Bad (SOther IndexError)
    | c :: rest =>
        if existsb is_slash c then try p <- resolve_pathname en c; Good (p :: rest) else Good l
    end);
  try cwd <- any_error en (str "'cwd': ") (
    try v <- get "cwd" config;
    try o <- as_option as_text v;
    match o with None => Good None | Some p => try q <- resolve_pathname en p; Good (Some q) end);
  try environ <- (try v <- get "environ" config; as_option (fun v => try l <- pairs_in v; map_s both_texts l) v);
  try reliable <- (try v <- get "is_reliable_scorer" config; as_bool v);
  try claim <- (try v <- get "allow_claim" config; as_bool v);
  try discard <- (try v <- get "discard_stderr" config; as_bool v);
  try sgf_name <- (try v <- get "sgf_player_name_from_gtp" config; as_bool v);
  try startup <- value_control (str "'startup_gtp_commands': ") (
    try v <- get "startup_gtp_commands" config;
    match list_of v with Some l => startup_commands en l | None => wrong end);
  try aliases <- value_control (str "'gtp_aliases': ") (
    try v <- get "gtp_aliases" config;
    try l <- pairs_in v;
    add_aliases l []);
  Good (mkPlayer code cmd_args cwd environ reliable claim discard sgf_name startup aliases).

(** ** Competition.initialise_from_control_file *)

(** competitions.py:161-165 [Competition.global_settings]. *)
Definition base_settings : list setting :=
  [mkSetting (str "description") (allow_none interpret_as_utf8_stripped) (Some VNone)].

(** competitions.py:199-207. *)
Definition interpret_pc : interpreter := fun v =>
  match v with VConfig c _ _ => if bytes_eqb c (str "Player") then Good v else bad "not a Player" | _ => bad "not a Player" end.
Definition players_settings : list setting :=
  [mkSetting (str "players") (interpret_map_of interpret_identifier interpret_pc) None].

(** competitions.py:213-219: the loop over the players. *)
Fixpoint make_players (en : environment) (l : list (pyval * pyval)) (d : dict player) : sres (dict player) :=
  match l with
  | [] => Good d
  | (k, v) :: rest =>
      try code <- as_text k;
      match v with
      | VConfig _ args kwargs =>
          try p <- any_error en (str "player " ++ code ++ str ": ") (player_from_config en code args kwargs);
          make_players en rest (dset code p d)
      | _ => wrong
      end
  end.

(** competitions.py:167-219 [initialise_from_control_file]: the attributes it sets, and
    [self.players]. *)
Definition competition_from_control (en : environment) (global_settings : list setting) (config : dict pyval)
  : sres (dict pyval * dict player) :=
  try to_set <- control_error (load_settings global_settings config true false);
  try specials <- control_error (load_settings players_settings config true false);
  try v <- get "players" specials;
  try items <- pairs_in v;
  try players <- make_players en items [];
  Good (to_set, players).

(** [v in self.players]: the key it is equal to.  Lists and dicts can't be looked up. *)
Definition find_player {A} (players : dict A) (v : pyval) : sres (option bytes) :=
  if hashable v then
    match key_text v with
    | Some s => if dmem s players then Good (Some s) else Good None
    | None => Good None
    end
  else wrong.

(** ** Game settings *)

(** competitions.py:503-512 [game_settings]. *)
Definition game_settings : list setting := [
  mkSetting (str "board_size") interpret_board_size None;
  mkSetting (str "komi") interpret_float None;
  mkSetting (str "handicap") (allow_none interpret_int) (Some VNone);
  mkSetting (str "handicap_style") (interpret_enum [str "fixed"; str "free"]) (Some (VStr (str "fixed")));
  mkSetting (str "move_limit") interpret_positive_int (Some (VInt 1000));
  mkSetting (str "scorer") (interpret_enum [str "internal"; str "players"]) (Some (VStr (str "players")));
  mkSetting (str "internal_scorer_handicap_compensation") (interpret_enum [str "no"; str "full"; str "short"])
    (Some (VStr (str "full")))].

(** tournaments.py:14-17 [matchup_settings]. *)
Definition matchup_settings : list setting := game_settings ++ [
  mkSetting (str "alternating") interpret_bool (Some (VBool false));
  mkSetting (str "number_of_games") (allow_none interpret_int) (Some VNone)].

(** competitions.py:455-476 [validate_handicap], with its messages. *)
Definition check_handicap (handicap : option Z) (free : bool) (size : Z) : sres unit :=
  match validate_handicap handicap free size with
  | Ok _ => Good tt
  | Err _ =>
      Bad (SControl match handicap with
                    | None => []
                    | Some h =>
                        if h <? 2 then str "handicap too small"
                        else (if free then str "free" else str "fixed") ++ str " handicap out of range for board size " ++ str_int size
                    end)
  end.
Definition is_free (v : pyval) : sres bool := try s <- as_text v; Good (bytes_eqb s (str "free")).

Section Komi.
(** The number that a float stands for, in TournModel's form. *)
Variable to_num : pyfloat -> num.

(** The game settings' values, as TournModel has them. *)
Definition as_compensation (v : pyval) : sres compensation :=
  try s <- as_text v;
  Good (if bytes_eqb s (str "no") then CompNo else if bytes_eqb s (str "full") then CompFull else CompShort).
Definition settings_of (d : dict pyval) : sres TournModel.settings :=
  try size <- (try v <- get "board_size" d; as_int v);
  try komi <- (try v <- get "komi" d; as_float v);
  try handicap <- (try v <- get "handicap" d; as_option as_int v);
  try free <- (try v <- get "handicap_style" d; is_free v);
  try limit <- (try v <- get "move_limit" d; as_int v);
  try scorer <- (try v <- get "scorer" d; as_text v);
  try comp <- (try v <- get "internal_scorer_handicap_compensation" d; as_compensation v);
  Good (mkSet size (to_num komi) handicap free limit (bytes_eqb scorer (str "internal")) comp).

(** ** Matchups *)
(** tournaments.py:50-60: the values of all the settings. *)
Fixpoint fill (settings : list setting) (parameters : dict pyval) : sres (dict pyval) :=
  match settings with
  | [] => Good []
  | s :: rest =>
      try v <- match dget (st_name s) parameters with
               | Some v => Good v
               | None => match get_default s with
                         | Bad SKey => Bad (SValue (str "'" ++ st_name s ++ str "' not specified"))
                         | r => r
                         end
               end;
      try r <- fill rest parameters;
      Good ((st_name s, v) :: r)
  end.

(** A Matchup with its name and its event_description. *)
Definition named_matchup : Type := matchup * bytes * bytes.

(** tournaments.py:46-70 [Matchup.__init__] and :107-120 [make_matchup]. *)
Definition control_matchup (event_code : bytes) (id p1 p2 : bytes) (parameters : dict pyval) (name : option bytes)
  : sres named_matchup :=
  control_error (
    try d <- fill matchup_settings parameters;
    try s <- settings_of d;
    try alternating <- (try v <- get "alternating" d; as_bool v);
    try games <- (try v <- get "number_of_games" d; as_option as_int v);
    try _ <- check_handicap (s_handicap s) (s_free s) (s_board_size s);
    Good (mkM id p1 p2 alternating games s,
          match name with None => p1 ++ str " v " ++ p2 | Some n => n end,
          match name with None => event_code | Some n => event_code ++ str " (" ++ n ++ str ")" end)).

(** ** Playoffs *)

(** playoffs.py:10-17 [Matchup_config]. *)
Definition matchup_class : qclass :=
  mkQC (str "Matchup") [str "player_1"; str "player_2"] ([str "id"; str "name"] ++ map st_name matchup_settings).

(** [d.update(e)]. *)
Definition update {A} (d e : dict A) : dict A := fold_left (fun d p => dset (fst p) (snd p) d) e d.

(** playoffs.py:60-64: the matchup's id. *)
Definition matchup_id (number : nat) (arguments : dict pyval) : sres bytes :=
  match dget (str "id") arguments with
  | None => Good (str_int (Z.of_nat number))
  | Some v => prefix_value (str "'id': ") (try r <- interpret_identifier v; as_text r)
  end.

(** playoffs.py:65-93: the rest. *)
Definition matchup_rest (en : environment) (event_code id : bytes) (players : dict player) (arguments defaults : dict pyval)
  : sres (dict player * named_matchup) :=
  match dget (str "player_1") arguments, dget (str "player_2") arguments with
  | Some v1, Some v2 =>
      try f1 <- find_player players v1;
      match f1 with
      | None => try t <- en_show en v1; Bad (SControl (str "unknown player " ++ t))
      | Some p1 =>
          try f2 <- find_player players v2;
          match f2 with
          | None => try t <- en_show en v2; Bad (SControl (str "unknown player " ++ t))
          | Some p2 =>
              let same := bytes_eqb p1 p2 in
              let p2' := if same then p2 ++ str "#2" else p2 in
              let players' :=
                if same && negb (dmem p2' players) then
                  match dget p1 players with Some p => dset p2' (copy_player p p2') players | None => players end
                else players in
              try interpreted <- load_settings matchup_settings arguments false true;
              try name <- match dget (str "name") arguments with
                          | None | Some VNone => Good None
                          | Some v => prefix_value (str "'name': ") (
                                        try r <- interpret_as_utf8 v; try s <- as_text r; Good (Some s))
                          end;
              try m <- control_matchup event_code id p1 p2' (update defaults interpreted) name;
              Good (players', m)
          end
      end
  | _, _ => Bad (SControl (str "not enough arguments"))
  end.

(** playoffs.py:94-95: the exception handler. *)
Definition matchup_error {A} (en : environment) (id : bytes) (m : sres A) : sres A :=
  any_error en (str "matchup " ++ id ++ str ": ") m.

(** playoffs.py:45-95 [matchup_from_config]. *)
Definition matchup_from_control (en : environment) (event_code : bytes) (number : nat) (players : dict player)
  (args : list pyval) (kwargs : list (bytes * pyval)) (defaults : dict pyval) : sres (dict player * named_matchup) :=
  let number_id := str_int (Z.of_nat number) in
  try arguments <- matchup_error en number_id (resolve_arguments matchup_class args kwargs);
  try id <- matchup_error en number_id (matchup_id number arguments);
  matchup_error en id (matchup_rest en event_code id players arguments defaults).

(** playoffs.py:120-128: the loop; [done] are the matchups so far. *)
Fixpoint matchups_from_control (en : environment) (event_code : bytes) (number : nat) (players : dict player)
  (l : list pyval) (defaults : dict pyval) (done : list named_matchup) : sres (dict player * list named_matchup) :=
  match l with
  | [] => Good (players, done)
  | VConfig _ args kwargs :: rest =>
      try r <- matchup_from_control en event_code number players args kwargs defaults;
      let (players', m) := r in
      let id := m_id (fst (fst m)) in
      if bmem id (map (fun m => m_id (fst (fst m))) done) then Bad (SControl (str "duplicate matchup id '" ++ id ++ str "'"))
      else matchups_from_control en event_code (S number) players' rest defaults (done ++ [m])
  | _ :: _ => wrong
  end.

(** playoffs.py:40-43 [special_settings]. *)
Definition playoff_special : list setting :=
  [mkSetting (str "matchups") (interpret_sequence_of_quiet_configs (str "Matchup") (str "Matchup") false) None].

(** What a competition knows after reading the control file. *)
Record tournament_control : Type := mkTC {
  tc_description : option bytes;
  tc_players : dict player;
  tc_matchups : list named_matchup;
  tc_competitors : option (list bytes)
}.
(** As TournModel has it. *)
Definition config_of (tc : tournament_control) : tconfig :=
  mkCf (dkeys (tc_players tc)) (map (fun m => fst (fst m)) (tc_matchups tc)) (tc_competitors tc).

Definition description_of (d : dict pyval) : sres (option bytes) :=
  try v <- get "description" d; as_option as_text v.

(** playoffs.py:98-128 [initialise_from_control_file]. *)
Definition playoff_from_control (en : environment) (event_code : bytes) (config : dict pyval) : sres tournament_control :=
  try base <- competition_from_control en base_settings config;
  let (attributes, players) := base in
  try defaults <- control_error (load_settings matchup_settings config true true);
  try _ <- (if dmem (str "board_size") defaults then
              try size <- (try v <- get "board_size" defaults; as_int v);
              try handicap <- (try v <- get "handicap" defaults; as_option as_int v);
              try free <- (try v <- get "handicap_style" defaults; is_free v);
              match check_handicap handicap free size with
              | Bad (SControl t) => Bad (SControl (str "default " ++ t))
              | r => r
              end
            else Good tt);
  try specials <- control_error (load_settings playoff_special config true false);
  try v <- get "matchups" specials;
  match list_of v with
  | Some [] => Bad (SControl (str "matchups: empty list"))
  | Some l =>
      try r <- matchups_from_control en event_code 0 players l defaults [];
      try description <- description_of attributes;
      Good (mkTC description (fst r) (snd r) None)
  | None => wrong
  end.

(** ** All-play-alls *)

(** allplayalls.py:14-18 [Competitor_config]. *)
Definition competitor_class : qclass := mkQC (str "Competitor") [str "player"] [].

(** allplayalls.py:46-50 [special_settings]. *)
Definition allplayall_special : list setting :=
  [mkSetting (str "competitors") (interpret_sequence_of_quiet_configs (str "Competitor") (str "Competitor") true) None].

(** allplayalls.py:90-96. *)
Definition allplayall_settings : list setting :=
  filter (fun s => negb (bytes_eqb (st_name s) (str "handicap") || bytes_eqb (st_name s) (str "handicap_style"))) game_settings
  ++ [mkSetting (str "rounds") (allow_none interpret_int) (Some VNone)].

(** allplayalls.py:52-81 [competitor_spec_from_config]: (short_code, player). *)
Definition competitor_from_control (en : environment) (i : nat) (players : dict player) (args : list pyval)
  (kwargs : list (bytes * pyval)) : sres (bytes * bytes) :=
  try arguments <- resolve_arguments competitor_class args kwargs;
  match dget (str "player") arguments with
  | None => bad "player not specified"
  | Some v =>
      try f <- find_player players v;
      match f with
      | None => Bad (SControl (str "unknown player"))
      | Some p =>
          match short_code i with
          | Ok c => Good (c, p)
          | Err _ => bad "too many competitors"
          end
      end
  end.

(** allplayalls.py:113-125: the loop. *)
Fixpoint competitors_from_control (en : environment) (i : nat) (players : dict player) (l : list pyval) (seen : list bytes)
  : sres (list (bytes * bytes)) :=
  match l with
  | [] => Good []
  | VConfig _ args kwargs :: rest =>
      let key := match get_key competitor_class args kwargs with
                 | Some VNone | None => str_int (Z.of_nat i)
                 | Some v => en_text en v
                 end in
      try c <- any_error en (str "competitor " ++ key ++ str ": ") (competitor_from_control en i players args kwargs);
      if bmem (snd c) seen then Bad (SControl (str "duplicate competitor: " ++ snd c))
      else try r <- competitors_from_control en (S i) players rest (snd c :: seen); Good (c :: r)
  | _ :: _ => wrong
  end.

(** allplayalls.py:131-143: the matchups of one competitor, and of all. *)
Fixpoint meetings (en : environment) (event_code : bytes) (parameters : dict pyval) (c1 : bytes * bytes) (l : list (bytes * bytes))
  : sres (list named_matchup) :=
  match l with
  | [] => Good []
  | c2 :: rest =>
      try m <- any_error en (snd c1 ++ str " v " ++ snd c2 ++ str ": ")
                 (control_matchup event_code (get_matchup_id (fst c1) (fst c2)) (snd c1) (snd c2) parameters None);
      try r <- meetings en event_code parameters c1 rest;
      Good (m :: r)
  end.
Fixpoint all_meetings (en : environment) (event_code : bytes) (parameters : dict pyval) (l : list (bytes * bytes))
  : sres (list named_matchup) :=
  match l with
  | [] => Good []
  | c :: rest =>
      try a <- meetings en event_code parameters c rest;
      try b <- all_meetings en event_code parameters rest;
      Good (a ++ b)
  end.

(** allplayalls.py:87-143 [initialise_from_control_file]. *)
Definition allplayall_from_control (en : environment) (event_code : bytes) (config : dict pyval) : sres tournament_control :=
  try base <- competition_from_control en base_settings config;
  let (attributes, players) := base in
  try parameters <- control_error (load_settings allplayall_settings config true false);
  try rounds <- get "rounds" parameters;
  let parameters := dset (str "number_of_games") rounds
                      (ddel (str "rounds") (dset (str "alternating") (VBool true) parameters)) in
  try specials <- control_error (load_settings allplayall_special config true false);
  try v <- get "competitors" specials;
  match list_of v with
  | Some [] => Bad (SControl (str "competitors: empty list"))
  | Some l =>
      try cs <- competitors_from_control en 0 players l [];
      try ms <- all_meetings en event_code parameters cs;
      try description <- description_of attributes;
      Good (mkTC description players ms (Some (map snd cs)))
  | None => wrong
  end.

(** ** Startup checks *)
(** game_jobs.py:401-412 [Player_check]: the player, the board size and the komi. *)
Definition check : Type := player * Z * num.

(** playoffs.py:136-142: [used_players], from the last matchup to the first. *)
Definition use_matchup (m : matchup) (d : dict matchup) : dict matchup :=
  match m_games m with
  | Some 0 => d
  | _ => dset (m_player_2 m) m (dset (m_player_1 m) m d)
  end.
Definition used_players (ms : list matchup) : dict matchup := fold_right use_matchup [] ms.

Fixpoint checks_of (players : dict player) (l : list (bytes * matchup)) : sres (list check) :=
  match l with
  | [] => Good []
  | (code, m) :: rest =>
      match dget code players with
      | None => Bad SKey
      | Some p =>
          try r <- checks_of players rest;
          Good ((p, s_board_size (m_settings m), s_komi (m_settings m)) :: r)
      end
  end.
(** playoffs.py:133-150 [get_player_checks]. *)
Definition playoff_checks (tc : tournament_control) : sres (list check) :=
  checks_of (tc_players tc) (sort_items (used_players (map (fun m => fst (fst m)) (tc_matchups tc)))).

(** allplayalls.py:169-178 [get_player_checks]. *)
Definition allplayall_checks (tc : tournament_control) : sres (list check) :=
  match tc_matchups tc, tc_competitors tc with
  | (m, _, _) :: _, Some cs => checks_of (tc_players tc) (map (fun c => (c, m)) cs)
  | [], _ => Bad (SOther IndexError)
  | _, None => Bad (SOther AttributeError)
  end.

(** ** Tuners *)
Section Tuners.
(** [V]: engine parameters.  [apply n q]: calling the callable [n] of the control file with a
    float; [make n l]: calling the callable [n] as make_candidate (None: an exception);
    [formats s v]: whether [s % v] succeeds. *)
Context {V : Type}.
Variable apply : nat -> pyfloat -> option V.
Variable make : nat -> list V -> option pyval.
Variable formats : bytes -> V -> bool.

(** cem_tuners.py:323-347, mcts_tuners.py:707-731 [make_candidate]; None: CompetitionError. *)
Definition make_candidate (en : environment) (maker : nat) (code : bytes) (l : list V) : option player :=
  match make maker l with
  | Some (VConfig c args kwargs) =>
      if bytes_eqb c (str "Player") then
        match player_from_config en code args kwargs with Good p => Some p | Bad _ => None end
      else None
  | _ => None
  end.

Definition tuner_special (parameter : bytes) : list setting := [
  mkSetting (str "opponent") interpret_identifier None;
  mkSetting (str "parameters") (interpret_sequence_of_quiet_configs (str "Parameter") parameter false) None;
  mkSetting (str "make_candidate") interpret_callable None].

Definition colour_of (v : pyval) : sres (option colour) :=
  try s <- as_text v;
  if bytes_eqb s (str "b") then Good (Some Black) else if bytes_eqb s (str "w") then Good (Some White) else Good None.

(** The loop over the parameters (cem_tuners.py:211-226, mcts_tuners.py:616-632); [one]:
    parameter_spec_from_config; [code]: its code. *)
Fixpoint parameters_from_control {A} (en : environment) (q : qclass) (one : list pyval -> list (bytes * pyval) -> sres A)
  (code : A -> bytes) (i : nat) (l : list pyval) (seen : list bytes) : sres (list A) :=
  match l with
  | [] => Good []
  | VConfig _ args kwargs :: rest =>
      let key := match get_key q args kwargs with
                 | Some VNone | None => str_int (Z.of_nat i)
                 | Some v => en_text en v
                 end in
      try p <- any_error en (str "parameter " ++ key ++ str ": ") (one args kwargs);
      if bmem (code p) seen then Bad (SControl (str "duplicate parameter code: " ++ code p))
      else try r <- parameters_from_control en q one code (S i) rest (code p :: seen); Good (p :: r)
  | _ :: _ => wrong
  end.

(** What a tuner reads in the same way: the opponent's code, the parameters, and
    make_candidate. *)
Definition tuner_specials {A} (en : environment) (q : qclass) (one : list pyval -> list (bytes * pyval) -> sres A)
  (code : A -> bytes) (players : dict player) (config : dict pyval) : sres (bytes * list A * nat) :=
  try specials <- control_error (load_settings (tuner_special (str "Parameter")) config true false);
  try opponent <- (try v <- get "opponent" specials; as_text v);
  if negb (dmem opponent players) then Bad (SControl (str "opponent: unknown player " ++ opponent))
  else
    try v <- get "parameters" specials;
    match list_of v with
    | Some [] => Bad (SControl (str "parameters: empty list"))
    | Some l =>
        try ps <- parameters_from_control en q one code 0 l [];
        try maker <- (try v <- get "make_candidate" specials; as_fun v);
        Good (opponent, ps, maker)
    | None => wrong
    end.

(** *** The cross-entropy tuner *)

(** [float(v)], the default transform, is callable number 0. *)
Definition cem_parameter_settings : list setting := [
  mkSetting (str "code") interpret_identifier None;
  mkSetting (str "initial_mean") interpret_float None;
  mkSetting (str "initial_variance") interpret_float None;
  mkSetting (str "transform") interpret_callable (Some (VFun 0));
  mkSetting (str "format") interpret_8bit_string (Some VNone)].
Definition cem_parameter_class : qclass :=
  mkQC (str "Parameter") [str "code"] [str "initial_mean"; str "initial_variance"; str "transform"; str "format"].

Record cem_parameter : Type := mkCP {
  cp_code : bytes;
  cp_mean : pyfloat;
  cp_variance : pyfloat;
  cp_transform : nat;
  cp_format : bytes
}.

(** [f < 0.0], and [0.0 < f < 1.0]. *)
Definition negative (f : pyfloat) : bool :=
  match f with FNum q => negb (Qle_bool 0 q) | FInf n => n | FNan => false end.
Definition strictly_between_0_1 (f : pyfloat) : bool :=
  match f with FNum q => negb (Qle_bool q 0) && negb (Qle_bool 1 q) | _ => false end.

Definition default_format (code : bytes) (o : option bytes) : bytes :=
  match o with None => code ++ str ":%s" | Some s => s end.

(** cem_tuners.py:157-187 [parameter_spec_from_config]; the text of a traceback isn't
    modelled. *)
Definition cem_parameter_from_control (args : list pyval) (kwargs : list (bytes * pyval)) : sres cem_parameter :=
  try arguments <- resolve_arguments cem_parameter_class args kwargs;
  try d <- load_settings cem_parameter_settings arguments true false;
  try code <- (try v <- get "code" d; as_text v);
  try mean <- (try v <- get "initial_mean" d; as_float v);
  try variance <- (try v <- get "initial_variance" d; as_float v);
  try transform <- (try v <- get "transform" d; as_fun v);
  try format <- (try v <- get "format" d; as_option as_text v);
  if negative variance then bad "'initial_variance': must be nonnegative"
  else
    match apply transform mean with
    | None => bad "error from transform (applied to initial_mean)"
    | Some transformed =>
        let f := default_format code format in
        if formats f transformed then Good (mkCP code mean variance transform f)
        else Bad (SControl (str "'format': invalid format string"))
    end.

(** cem_tuners.py:140-149 [global_settings]. *)
Definition cem_settings : list setting := base_settings ++ game_settings ++ [
  mkSetting (str "candidate_colour") interpret_candidate_colour None;
  mkSetting (str "batch_size") interpret_positive_int None;
  mkSetting (str "samples_per_generation") interpret_positive_int None;
  mkSetting (str "number_of_generations") interpret_positive_int None;
  mkSetting (str "elite_proportion") interpret_float None;
  mkSetting (str "step_size") interpret_float None].

Record cem_control : Type := mkCemC {
  ce_description : option bytes;
  ce_players : dict player;
  ce_settings : TournModel.settings;
  ce_colour : option colour;
  ce_batch_size : Z;
  ce_samples : Z;
  ce_generations : Z;
  ce_elite : pyfloat;
  ce_step : pyfloat;
  ce_opponent : bytes;
  ce_parameters : list cem_parameter;
  ce_maker : nat
}.

(** cem_tuners.py:189-234 [initialise_from_control_file]. *)
Definition cem_from_control (en : environment) (config : dict pyval) : sres cem_control :=
  try base <- competition_from_control en cem_settings config;
  let (d, players) := base in
  try s <- settings_of d;
  try _ <- check_handicap (s_handicap s) (s_free s) (s_board_size s);
  try elite <- (try v <- get "elite_proportion" d; as_float v);
  try step <- (try v <- get "step_size" d; as_float v);
  if negb (strictly_between_0_1 elite) then Bad (SControl (str "elite_proportion out of range (0.0 to 1.0)"))
  else if negb (strictly_between_0_1 step) then Bad (SControl (str "step_size out of range (0.0 to 1.0)"))
  else
    try r <- tuner_specials en cem_parameter_class cem_parameter_from_control cp_code players config;
    let '(opponent, ps, maker) := r in
    try description <- description_of d;
    try c <- (try v <- get "candidate_colour" d; colour_of v);
    try batch <- (try v <- get "batch_size" d; as_int v);
    try samples <- (try v <- get "samples_per_generation" d; as_int v);
    try generations <- (try v <- get "number_of_generations" d; as_int v);
    Good (mkCemC description players s c batch samples generations elite step opponent ps maker).

(** As CemModel has it; floats must be finite. *)
Definition finite (f : pyfloat) : option Q := match f with FNum q => Some q | _ => None end.
Fixpoint initial_distribution (l : list cem_parameter) : option CemModel.distribution :=
  match l with
  | [] => Some []
  | p :: rest =>
      match finite (cp_mean p), finite (cp_variance p), initial_distribution rest with
      | Some m, Some v, Some r => Some ((m, v) :: r)
      | _, _, _ => None
      end
  end.
Definition cem_config (en : environment) (gauss : nat -> Q -> Q -> Q) (coin : nat -> bool) (c : cem_control)
  : option (CemModel.cconfig V player) :=
  match initial_distribution (ce_parameters c), finite (ce_elite c), finite (ce_step c), dget (ce_opponent c) (ce_players c) with
  | Some init, Some elite, Some step, Some opponent =>
      Some (CemModel.mkCC init (map (fun p q => apply (cp_transform p) (FNum q)) (ce_parameters c))
              (make_candidate en (ce_maker c) []) (ce_opponent c) opponent (ce_batch_size c)
              (Z.to_nat (ce_samples c)) (Z.to_nat (ce_generations c)) elite step (ce_colour c) gauss coin)
  | _, _, _, _ => None
  end.

(** *** The Monte Carlo tree search tuner *)

Definition mcts_parameter_settings : list setting := [
  mkSetting (str "code") interpret_identifier None;
  mkSetting (str "scale") interpret_callable None;
  mkSetting (str "split") interpret_positive_int None;
  mkSetting (str "format") interpret_8bit_string (Some VNone)].
Definition mcts_parameter_class : qclass :=
  mkQC (str "Parameter") [str "code"] [str "scale"; str "split"; str "format"].

Record mcts_parameter : Type := mkMP {
  mp_code : bytes;
  mp_scale : nat;
  mp_split : Z;
  mp_format : bytes
}.

(** mcts_tuners.py:565-591 [parameter_spec_from_config]; [1.0/(split*2)] is an exact number
    here. *)
Definition mcts_parameter_from_control (args : list pyval) (kwargs : list (bytes * pyval)) : sres mcts_parameter :=
  try arguments <- resolve_arguments mcts_parameter_class args kwargs;
  try d <- load_settings mcts_parameter_settings arguments true false;
  try code <- (try v <- get "code" d; as_text v);
  try scale <- (try v <- get "scale" d; as_fun v);
  try split <- (try v <- get "split" d; as_int v);
  try format <- (try v <- get "format" d; as_option as_text v);
  match apply scale (FNum (1 / inject_Z (split * 2))%Q) with
  | None => bad "error from scale"
  | Some scaled =>
      let f := default_format code format in
      if formats f scaled then Good (mkMP code scale split f)
      else Bad (SControl (str "'format': invalid format string"))
  end.

(** mcts_tuners.py:537-547 [global_settings]. *)
Definition mcts_settings : list setting := base_settings ++ game_settings ++ [
  mkSetting (str "number_of_games") (allow_none interpret_int) (Some VNone);
  mkSetting (str "candidate_colour") interpret_candidate_colour None;
  mkSetting (str "log_tree_to_history_period") (allow_none interpret_positive_int) (Some VNone);
  mkSetting (str "summary_spec") (interpret_sequence_of interpret_int) (Some (VList [VInt 30]));
  mkSetting (str "number_of_running_simulations_to_show") interpret_int (Some (VInt 12))].
(** mcts_tuners.py:557-563 [tree_settings]. *)
Definition tree_settings : list setting := [
  mkSetting (str "max_depth") interpret_positive_int (Some (VInt 1));
  mkSetting (str "exploration_coefficient") interpret_float None;
  mkSetting (str "initial_visits") interpret_positive_int None;
  mkSetting (str "initial_wins") interpret_positive_int None].

Record mcts_control : Type := mkMctsC {
  mt_description : option bytes;
  mt_players : dict player;
  mt_settings : TournModel.settings;
  mt_komi : pyfloat;
  mt_number_of_games : option Z;
  mt_colour : option colour;
  mt_log_period : option Z;
  mt_summary : list Z;
  mt_show : Z;
  mt_opponent : bytes;
  mt_parameters : list mcts_parameter;
  mt_maker : nat;
  mt_max_depth : Z;
  mt_exploration : pyfloat;
  mt_initial_visits : Z;
  mt_initial_wins : Z
}.

(** [f == int(f)]. *)
Definition is_integral (f : pyfloat) : sres bool :=
  match f with
  | FNum q => Good (Qeq_bool q (inject_Z (Qfloor q)))
  | FInf _ => Bad (SOther OverflowError)
  | FNan => bad "cannot convert float NaN to integer"
  end.

(** mcts_tuners.py:593-640 [initialise_from_control_file]. *)
Definition mcts_from_control (en : environment) (config : dict pyval) : sres mcts_control :=
  try base <- competition_from_control en mcts_settings config;
  let (d, players) := base in
  try komi <- (try v <- get "komi" d; as_float v);
  try integral <- is_integral komi;
  if integral then Bad (SControl (str "komi: must be fractional to prevent jigos"))
  else
    try s <- settings_of d;
    try _ <- check_handicap (s_handicap s) (s_free s) (s_board_size s);
    try r <- tuner_specials en mcts_parameter_class mcts_parameter_from_control mp_code players config;
    let '(opponent, ps, maker) := r in
    try t <- control_error (load_settings tree_settings config true false);
    try max_depth <- (try v <- get "max_depth" t; as_int v);
    try exploration <- (try v <- get "exploration_coefficient" t; as_float v);
    try visits <- (try v <- get "initial_visits" t; as_int v);
    try wins <- (try v <- get "initial_wins" t; as_int v);
    try description <- description_of d;
    try games <- (try v <- get "number_of_games" d; as_option as_int v);
    try c <- (try v <- get "candidate_colour" d; colour_of v);
    try period <- (try v <- get "log_tree_to_history_period" d; as_option as_int v);
    try summary <- (try v <- get "summary_spec" d; match list_of v with Some l => map_s as_int l | None => wrong end);
    try show <- (try v <- get "number_of_running_simulations_to_show" d; as_int v);
    Good (mkMctsC description players s komi games c period summary show opponent ps maker max_depth exploration visits wins).

(** As MctsModel has it. *)
Definition mcts_config (en : environment) (random : nat -> nat) (c : mcts_control) : option (MctsModel.mconfig V player) :=
  match dget (mt_opponent c) (mt_players c) with
  | None => None
  | Some opponent =>
      Some (MctsModel.mkMC
              (MctsModel.mkTP (map (fun p => Z.to_nat (mp_split p)) (mt_parameters c)) (Z.to_nat (mt_max_depth c))
                 (mt_initial_visits c) (mt_initial_wins c))
              (map (fun p q => apply (mp_scale p) (FNum q)) (mt_parameters c))
              (make_candidate en (mt_maker c) []) (mt_opponent c) opponent (mt_number_of_games c) (mt_colour c) random)
  end.

End Tuners.
End Komi.
