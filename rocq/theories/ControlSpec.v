(** What control files mean (C52-C56), apart from the code that reads them. *)
From Coq Require Import QArith.
From Verif Require Import Base Bytes PyStr Dict SgfPropsSpec CommonModel GameplayModel TournModel
  SettingsModel SettingsSpec ControlModel.
From Verif Require GtpModel.
Open Scope Z_scope.

(** ** Values.  [R v x]: [v] is acceptable, and means [x]. *)
Definition no_nul (s : bytes) : Prop := forall c, In c s -> ord c <> 0.
Definition string_value (v : pyval) (s : bytes) : Prop := text v s /\ no_nul s.
Definition identifier_value (v : pyval) (s : bytes) : Prop := text v s /\ identifier s.
Definition bool_value (v : pyval) (b : bool) : Prop := v = VBool b.
Definition positive_value (v : pyval) (z : Z) : Prop := int_value v z /\ 0 < z.
Definition size_value (v : pyval) (z : Z) : Prop := int_value v z /\ 2 <= z <= 25.
Definition callable_value (v : pyval) (n : nat) : Prop := v = VFun n.
Definition none_or {A} (R : pyval -> A -> Prop) (v : pyval) (o : option A) : Prop :=
  (v = VNone /\ o = None) \/ (v <> VNone /\ exists x, R v x /\ o = Some x).
Inductive float_value : pyval -> pyfloat -> Prop :=
| fv_float f : float_value (VFloat f) f
| fv_bool b : float_value (VBool b) (FNum (if b then 1 else 0))
(** [float(z)]: the nearest floating-point number *)
| fv_int z f : float_of_int z = Some f -> float_value (VInt z) f
| fv_long z f : float_of_int z = Some f -> float_value (VLong z) f.

(** ** Looking up settings.  The value in the first of the dicts that has the setting, or else
    the default. *)
Fixpoint value_in {A} (ds : list (dict pyval)) (name : string) (R : pyval -> A -> Prop) (default : option A) (x : A) : Prop :=
  match ds with
  | [] => default = Some x
  | d :: rest =>
      (exists v, given d (str name) v /\ R v x) \/ (dget (str name) d = None /\ value_in rest name R default x)
  end.
(** If the dict has the setting, then its value is acceptable. *)
Definition acceptable {A} (d : dict pyval) (name : string) (R : pyval -> A -> Prop) : Prop :=
  dget (str name) d = None \/ exists v x, given d (str name) v /\ R v x.

(** The arguments of Player(...), Matchup(...) and so on, by name. *)
Definition arguments_are (q : qclass) (args : list pyval) (kwargs : list (bytes * pyval)) (d : dict pyval) : Prop :=
  arguments_ok q args kwargs /\ forall name v, dget name d = Some v <-> argument q args kwargs name v.

(** ** Players *)
(** A command line: one string, split as a shell does; or a sequence of strings. *)
Definition is_string (v : pyval) : Prop := (exists s, v = VStr s) \/ (exists u, v = VUni u).
Definition command_value (en : environment) (v : pyval) (l : list bytes) : Prop :=
  l <> [] /\
  ((is_string v /\ exists t, string_value v t /\ en_shlex en t = inl l) \/
   (~ is_string v /\ exists vs, elements v vs /\ Forall2 string_value vs l)).

(** Relative to the base directory, unless absolute. *)
Definition absolute (p : bytes) : Prop := exists t, p = "/"%char :: t.
Definition resolved (en : environment) (p r : bytes) : Prop :=
  p <> [] /\ exists e, en_expanduser en p = Some e /\
    ((absolute e /\ r = e) \/
     (~ absolute e /\ exists b, en_base en = Some b /\
        (((b = [] \/ exists t, b = t ++ str "/") /\ r = b ++ e) \/
         (b <> [] /\ (forall t, b <> t ++ str "/") /\ r = b ++ str "/" ++ e)))).
(** The program's pathname is resolved if it contains a slash. *)
Definition command_resolved (en : environment) (l r : list bytes) : Prop :=
  exists c rest, l = c :: rest /\
    ((In "/"%char c /\ exists c', resolved en c c' /\ r = c' :: rest) \/ (~ In "/"%char c /\ r = l)).

(** A map from strings to strings ([dict_of]: what Python's dict() makes of a value). *)
Definition strings_map (v : pyval) (l : list (bytes * bytes)) : Prop :=
  exists items, dict_of v = Some items /\
    (forall k w, In (k, w) items -> exists s x, string_value k s /\ string_value w x) /\
    increasing (map fst l) /\
    (forall s x, In (s, x) l <-> exists k w, In (k, w) items /\ string_value k s /\ string_value w x).

Definition gtp_word_ok (w : bytes) : Prop := w <> [] /\ forall c, In c w -> 33 <= ord c <= 126 \/ 128 <= ord c.
(** A startup command: one string, split at white space; or a sequence of words. *)
Definition command_words (v : pyval) (ws : list bytes) : Prop :=
  (is_string v /\ exists s, string_value v s /\ GtpModel.split_ws s = ws) \/
  (~ is_string v /\ elements v (map VStr ws)).
Definition startup_value (v : pyval) (l : list (bytes * list bytes)) : Prop :=
  exists vs, elements v vs /\
    Forall2 (fun v c => command_words v (fst c :: snd c) /\ Forall gtp_word_ok (fst c :: snd c)) vs l.
Definition aliases_value (v : pyval) (l : dict bytes) : Prop :=
  strings_map v l /\ forall a b, In (a, b) l -> gtp_word_ok a /\ gtp_word_ok b.

Definition player_described (en : environment) (code : bytes) (args : list pyval) (kwargs : list (bytes * pyval)) (p : player) : Prop :=
  exists d, arguments_are (player_class en) args kwargs d /\
    p_code p = code /\
    (exists l, value_in [d] "command" (command_value en) None l /\ command_resolved en l (p_cmd_args p)) /\
    value_in [d] "cwd" (none_or (fun v r => exists s, string_value v s /\ resolved en s r)) (Some None) (p_cwd p) /\
    value_in [d] "environ" (none_or strings_map) (Some None) (p_environ p) /\
    value_in [d] "is_reliable_scorer" bool_value (Some true) (p_reliable p) /\
    value_in [d] "allow_claim" bool_value (Some false) (p_claim p) /\
    value_in [d] "discard_stderr" bool_value (Some false) (p_discard p) /\
    value_in [d] "sgf_player_name_from_gtp" bool_value (Some true) (p_sgf_name p) /\
    value_in [d] "startup_gtp_commands" startup_value (Some []) (p_startup p) /\
    value_in [d] "gtp_aliases" aliases_value (Some []) (p_aliases p).

(** Python's dicts have distinct keys. *)
Definition proper_dict (v : pyval) : Prop :=
  forall items, v = VDict items -> forall i j a b, nth_error items i = Some a -> nth_error items j = Some b -> (i < j)%nat ->
    py_eqb (fst a) (fst b) = false.
Definition proper_call (v : pyval) : Prop :=
  forall cls args kwargs, v = VConfig cls args kwargs ->
    NoDup (map fst kwargs) /\
    (forall w, In w args \/ In w (map snd kwargs) -> proper_dict w /\ forall c x, w = VProxy c (inl x) -> proper_dict x).

(** The players of a control file. *)
Definition players_described (en : environment) (config : dict pyval) (players : dict player) : Prop :=
  exists v items, given config (str "players") v /\ dict_of v = Some items /\
    increasing (dkeys players) /\
    (forall k w, In (k, w) items -> exists code args kwargs p, identifier_value k code /\ w = VConfig (str "Player") args kwargs /\
       In (code, p) players /\ player_described en code args kwargs p) /\
    (forall code p, In (code, p) players -> exists k args kwargs, In (k, VConfig (str "Player") args kwargs) items /\
       identifier_value k code /\ player_described en code args kwargs p).
Definition proper_players (config : dict pyval) : Prop :=
  forall v, given config (str "players") v -> proper_dict v /\
    forall items k w, dict_of v = Some items -> In (k, w) items -> proper_call w.

(** ** Games *)
Definition choice_value {A} (table : list (string * A)) (v : pyval) (x : A) : Prop :=
  exists s, text v (str s) /\ In (s, x) table.
Definition valid_handicap (h : option Z) (free : bool) (size : Z) : Prop :=
  h = None \/ exists n, h = Some n /\ 2 <= n /\
    (if free then n < size * size else 8 <= size /\ (if Z.even size then n <= 4 else n <= 9)).

Definition game_described (to_num : pyfloat -> num) (ds : list (dict pyval)) (s : settings) : Prop :=
  value_in ds "board_size" size_value None (s_board_size s) /\
  (exists f, value_in ds "komi" float_value None f /\ s_komi s = to_num f) /\
  value_in ds "handicap" (none_or int_value) (Some None) (s_handicap s) /\
  value_in ds "handicap_style" (choice_value [("fixed"%string, false); ("free"%string, true)]) (Some false) (s_free s) /\
  value_in ds "move_limit" positive_value (Some 1000) (s_move_limit s) /\
  value_in ds "scorer" (choice_value [("internal"%string, true); ("players"%string, false)]) (Some false) (s_internal s) /\
  value_in ds "internal_scorer_handicap_compensation"
    (choice_value [("no"%string, CompNo); ("full"%string, CompFull); ("short"%string, CompShort)]) (Some CompFull) (s_compensation s).

(** A game's settings are ones that games can be played with. *)
Definition playable (s : settings) : Prop :=
  2 <= s_board_size s <= 25 /\ 0 < s_move_limit s /\ valid_handicap (s_handicap s) (s_free s) (s_board_size s).

(** ** Playoffs *)
Definition unicode_ok (v : pyval) : Prop := forall u, v = VUni u -> Forall (fun z => 0 <= z < 1114112) u.
(** A name, in UTF-8. *)
Definition name_value (v : pyval) (s : bytes) : Prop := interpret_as_utf8 v = Good (VStr s).

(** The matchup [c], and its name, as written in the control file: the values in
    Matchup(...) come before those at the control file's top level. *)
Definition matchup_written (to_num : pyfloat -> num) (config : dict pyval) (v : pyval) (c : matchup_config) (name : option bytes) : Prop :=
  exists args kwargs d, v = VConfig (str "Matchup") args kwargs /\ arguments_are matchup_class args kwargs d /\
    ((dget (str "id") d = None /\ mc_id c = None) \/
     (exists w s, dget (str "id") d = Some w /\ identifier_value w s /\ mc_id c = Some s)) /\
    (exists w, dget (str "player_1") d = Some w /\ text w (mc_player_1 c)) /\
    (exists w, dget (str "player_2") d = Some w /\ text w (mc_player_2 c)) /\
    value_in [d; config] "alternating" bool_value (Some false) (mc_alternating c) /\
    value_in [d; config] "number_of_games" (none_or int_value) (Some None) (mc_games c) /\
    game_described to_num [d; config] (mc_settings c) /\
    (((dget (str "name") d = None \/ dget (str "name") d = Some VNone) /\ name = None) \/
     (exists w s, dget (str "name") d = Some w /\ w <> VNone /\ name_value w s /\ name = Some s)).

(** The values at the top level of the control file are acceptable, even where every matchup
    has its own. *)
Definition game_acceptable (d : dict pyval) : Prop :=
  acceptable d "board_size" size_value /\ acceptable d "komi" float_value /\ acceptable d "handicap" (none_or int_value) /\
  acceptable d "handicap_style" (choice_value [("fixed"%string, false); ("free"%string, true)]) /\
  acceptable d "move_limit" positive_value /\
  acceptable d "scorer" (choice_value [("internal"%string, true); ("players"%string, false)]) /\
  acceptable d "internal_scorer_handicap_compensation"
    (choice_value [("no"%string, CompNo); ("full"%string, CompFull); ("short"%string, CompShort)]).
Definition matchup_acceptable (d : dict pyval) : Prop :=
  game_acceptable d /\ acceptable d "alternating" bool_value /\ acceptable d "number_of_games" (none_or int_value).

Definition description_value (v : pyval) (s : bytes) : Prop := interpret_as_utf8_stripped v = Good (VStr s).

(** The names shown for a matchup and its games. *)
Definition names_of (event_code : bytes) (m : matchup) (name : option bytes) : bytes * bytes :=
  match name with
  | None => (m_player_1 m ++ str " v " ++ m_player_2 m, event_code)
  | Some n => (n, event_code ++ str " (" ++ n ++ str ")")
  end.

(** A clone of a player: the same program under another code. *)
Definition same_but_code (p q : player) : Prop :=
  p_cmd_args p = p_cmd_args q /\ p_cwd p = p_cwd q /\ p_environ p = p_environ q /\ p_reliable p = p_reliable q /\
  p_claim p = p_claim q /\ p_discard p = p_discard q /\ p_sgf_name p = p_sgf_name q /\ p_startup p = p_startup q /\
  p_aliases p = p_aliases q.

Definition proper_matchups (config : dict pyval) : Prop :=
  forall v l, given config (str "matchups") v -> elements v l -> Forall proper_call l.

Definition description_is (config : dict pyval) (o : option bytes) : Prop :=
  value_in [config] "description" (none_or description_value) (Some None) o.

(** If the control file has a default board size, then its default handicap is valid. *)
Definition default_handicap_ok (config : dict pyval) : Prop :=
  forall w size h free, given config (str "board_size") w -> size_value w size ->
    value_in [config] "handicap" (none_or int_value) (Some None) h ->
    value_in [config] "handicap_style" (choice_value [("fixed"%string, false); ("free"%string, true)]) (Some false) free ->
    valid_handicap h free size.

(** A player that is to play against itself plays against its clone, which is added to the
    players. *)
Definition second_player (players : dict player) (p1 p2 code : bytes) (players' : dict player) : Prop :=
  (p1 <> p2 /\ code = p2 /\ players' = players) \/
  (p1 = p2 /\ code = p1 ++ str "#2" /\
    ((In code (dkeys players) /\ players' = players) \/
     (~ In code (dkeys players) /\ exists p q, dget p1 players = Some p /\ same_but_code p q /\ p_code q = code /\
        players' = players ++ [(code, q)]))).

(** The matchups, from number [i] on, and the players before and after they're read. *)
Inductive entered (to_num : pyfloat -> num) (event_code : bytes) (config : dict pyval)
  : nat -> dict player -> list pyval -> list named_matchup -> dict player -> Prop :=
| ent_nil i ps : entered to_num event_code config i ps [] [] ps
| ent_cons i ps v rest c name m ms p2 ps1 ps2 :
    matchup_written to_num config v c name ->
    In (mc_player_1 c) (dkeys ps) -> In (mc_player_2 c) (dkeys ps) ->
    second_player ps (mc_player_1 c) (mc_player_2 c) p2 ps1 ->
    playable (mc_settings c) ->
    (* matchups are numbered from 0, unless they have an id *)
    m_id m = match mc_id c with Some id => id | None => str_int (Z.of_nat i) end ->
    m_player_1 m = mc_player_1 c -> m_player_2 m = p2 -> m_alternating m = mc_alternating c -> m_games m = mc_games c ->
    m_settings m = mc_settings c ->
    entered to_num event_code config (S i) ps1 rest ms ps2 ->
    entered to_num event_code config i ps (v :: rest)
      ((m, fst (names_of event_code m name), snd (names_of event_code m name)) :: ms) ps2.

Definition playoff_described (to_num : pyfloat -> num) (en : environment) (event_code : bytes) (config : dict pyval) (tc : tournament_control) : Prop :=
  description_is config (tc_description tc) /\ tc_competitors tc = None /\
  matchup_acceptable config /\ default_handicap_ok config /\
  NoDup (map (fun m => m_id (fst (fst m))) (tc_matchups tc)) /\
  exists ps v l, players_described en config ps /\ given config (str "matchups") v /\ elements v l /\ l <> [] /\
    entered to_num event_code config 0 ps l (tc_matchups tc) (tc_players tc).

(** ** All-play-alls *)
(** Competitor("p"), or simply "p". *)
Definition competitor_value (v : pyval) (code : bytes) : Prop :=
  (exists args kwargs d w, v = VConfig (str "Competitor") args kwargs /\ arguments_are competitor_class args kwargs d /\
     dget (str "player") d = Some w /\ text w code) \/
  text v code.
Definition proper_competitors (config : dict pyval) : Prop :=
  forall v l, given config (str "competitors") v -> elements v l -> Forall proper_call l.

(** The settings of all the games, which are without handicap, and the number of games in each
    matchup. *)
Definition allplayall_games (to_num : pyfloat -> num) (config : dict pyval) (s : settings) (rounds : option Z) : Prop :=
  value_in [config] "board_size" size_value None (s_board_size s) /\
  (exists f, value_in [config] "komi" float_value None f /\ s_komi s = to_num f) /\
  s_handicap s = None /\ s_free s = false /\
  value_in [config] "move_limit" positive_value (Some 1000) (s_move_limit s) /\
  value_in [config] "scorer" (choice_value [("internal"%string, true); ("players"%string, false)]) (Some false) (s_internal s) /\
  value_in [config] "internal_scorer_handicap_compensation"
    (choice_value [("no"%string, CompNo); ("full"%string, CompFull); ("short"%string, CompShort)]) (Some CompFull) (s_compensation s) /\
  value_in [config] "rounds" (none_or int_value) (Some None) rounds.

(** The competitors' letters: A to Z, then AA to ZZ. *)
Definition letters (i : Z) : bytes :=
  if i <? 26 then [chr (65 + i)] else [chr (65 + (i / 26 - 1)); chr (65 + i mod 26)].
(** All the pairs of a list, in order. *)
Fixpoint pairs {A} (l : list A) : list (A * A) :=
  match l with [] => [] | x :: rest => map (fun y => (x, y)) rest ++ pairs rest end.
Fixpoint numbered {A} (i : Z) (l : list A) : list (Z * A) :=
  match l with [] => [] | x :: rest => (i, x) :: numbered (i + 1) rest end.
(** The matchup between competitors number [fst a] and number [fst b]. *)
Definition meeting (event_code : bytes) (rounds : option Z) (s : settings) (p : (Z * bytes) * (Z * bytes)) : named_matchup :=
  let (a, b) := p in
  (mkM (letters (fst a) ++ str "v" ++ letters (fst b)) (snd a) (snd b) true rounds s, snd a ++ str " v " ++ snd b, event_code).

Definition allplayall_described (to_num : pyfloat -> num) (en : environment) (event_code : bytes) (config : dict pyval) (tc : tournament_control) : Prop :=
  description_is config (tc_description tc) /\
  players_described en config (tc_players tc) /\
  exists s rounds v l competitors, allplayall_games to_num config s rounds /\
    given config (str "competitors") v /\ elements v l /\ Forall2 competitor_value l competitors /\
    tc_competitors tc = Some competitors /\
    competitors <> [] /\ (List.length competitors <= 702)%nat /\ NoDup competitors /\ incl competitors (dkeys (tc_players tc)) /\
    tc_matchups tc = map (meeting event_code rounds s) (pairs (numbered 0 competitors)).

(** ** Startup checks *)
(** [m] is the first of the matchups in which [code] is to play any games. *)
Definition plays (m : matchup) (code : bytes) : Prop := m_games m <> Some 0 /\ (m_player_1 m = code \/ m_player_2 m = code).
Definition first_plays (ms : list matchup) (code : bytes) (m : matchup) : Prop :=
  exists before after, ms = before ++ m :: after /\ plays m code /\ forall m', In m' before -> ~ plays m' code.
Definition matchups_of (tc : tournament_control) : list matchup := map (fun m => fst (fst m)) (tc_matchups tc).

(** One check of each player that is to play, in order of their codes; with the board size and
    komi of the player's first matchup. *)
Definition playoff_checks_are (tc : tournament_control) (l : list check) : Prop :=
  increasing (map (fun c => p_code (fst (fst c))) l) /\
  forall p size komi, In (p, size, komi) l <->
    exists code m, dget code (tc_players tc) = Some p /\ first_plays (matchups_of tc) code m /\
      size = s_board_size (m_settings m) /\ komi = s_komi (m_settings m).
(** One check of each competitor, in order, with the board size and komi of all the games. *)
Definition allplayall_checks_are (tc : tournament_control) (l : list check) : Prop :=
  exists competitors, tc_competitors tc = Some competitors /\
    map (fun c => p_code (fst (fst c))) l = competitors /\
    forall p size komi, In (p, size, komi) l -> dget (p_code p) (tc_players tc) = Some p /\
      forall m, In m (matchups_of tc) -> size = s_board_size (m_settings m) /\ komi = s_komi (m_settings m).

(** ** Errors *)
(** The setting's value is an integer with no floating-point number near it. *)
Definition too_big (config : dict pyval) (name : string) : Prop :=
  exists v z, given config (str name) v /\ (v = VInt z \/ v = VLong z) /\ float_of_int z = None.
(** ControlFileError; or else OverflowError, because one of these settings is too big. *)
Definition control_file_error (config : dict pyval) (floats : list string) (e : serr) : Prop :=
  (exists t, e = SControl t) \/ (e = SOther OverflowError /\ exists name, In name floats /\ too_big config name).

(** ** Tuners *)
Definition candidate_colour_value (v : pyval) (c : option colour) : Prop :=
  ((text v (str "r") \/ text v (str "random")) /\ c = None) \/
  ((colour_word v (str "b") \/ colour_word v (str "black")) /\ c = Some Black) \/
  ((colour_word v (str "w") \/ colour_word v (str "white")) /\ c = Some White).
Definition between_0_1 (f : pyfloat) : Prop := exists q, f = FNum q /\ (0 < q < 1)%Q.
Definition not_negative (f : pyfloat) : Prop := match f with FNum q => (0 <= q)%Q | FInf n => n = false | FNan => True end.
Definition some_string (v : pyval) (o : option bytes) : Prop := exists s, string_value v s /\ o = Some s.
(** The format, which is "<code>:%s" unless it's given, can be applied to the value. *)
Definition format_is {V} (formats : bytes -> V -> bool) (code : bytes) (o : option bytes) (x : V) (f : bytes) : Prop :=
  f = match o with Some s => s | None => code ++ str ":%s" end /\ formats f x = true.

Definition cem_parameter_described {V} (apply : nat -> pyfloat -> option V) (formats : bytes -> V -> bool) (v : pyval) (p : cem_parameter) : Prop :=
  exists args kwargs d o x, v = VConfig (str "Parameter") args kwargs /\ arguments_are cem_parameter_class args kwargs d /\
    value_in [d] "code" identifier_value None (cp_code p) /\
    value_in [d] "initial_mean" float_value None (cp_mean p) /\
    value_in [d] "initial_variance" float_value None (cp_variance p) /\
    (* callable number 0 is float() *)
    value_in [d] "transform" callable_value (Some 0%nat) (cp_transform p) /\
    value_in [d] "format" some_string (Some None) o /\
    not_negative (cp_variance p) /\
    apply (cp_transform p) (cp_mean p) = Some x /\ format_is formats (cp_code p) o x (cp_format p).

Definition mcts_parameter_described {V} (apply : nat -> pyfloat -> option V) (formats : bytes -> V -> bool) (v : pyval) (p : mcts_parameter) : Prop :=
  exists args kwargs d o x, v = VConfig (str "Parameter") args kwargs /\ arguments_are mcts_parameter_class args kwargs d /\
    value_in [d] "code" identifier_value None (mp_code p) /\
    value_in [d] "scale" callable_value None (mp_scale p) /\
    value_in [d] "split" positive_value None (mp_split p) /\
    value_in [d] "format" some_string (Some None) o /\
    apply (mp_scale p) (FNum (1 / inject_Z (mp_split p * 2))%Q) = Some x /\ format_is formats (mp_code p) o x (mp_format p).

(** The opponent, the parameters and the maker of candidates. *)
Definition tuner_described {A} (one : pyval -> A -> Prop) (code : A -> bytes) (config : dict pyval) (players : dict player)
  (opponent : bytes) (ps : list A) (maker : nat) : Prop :=
  value_in [config] "opponent" identifier_value None opponent /\ In opponent (dkeys players) /\
  (exists v l, given config (str "parameters") v /\ elements v l /\ l <> [] /\ Forall2 one l ps) /\ NoDup (map code ps) /\
  value_in [config] "make_candidate" callable_value None maker.
Definition proper_parameters (config : dict pyval) : Prop :=
  forall v l, given config (str "parameters") v -> elements v l -> Forall proper_call l.

Definition cem_described {V} (apply : nat -> pyfloat -> option V) (formats : bytes -> V -> bool) (to_num : pyfloat -> num)
  (en : environment) (config : dict pyval) (c : cem_control) : Prop :=
  description_is config (ce_description c) /\ players_described en config (ce_players c) /\
  game_described to_num [config] (ce_settings c) /\ playable (ce_settings c) /\
  value_in [config] "candidate_colour" candidate_colour_value None (ce_colour c) /\
  value_in [config] "batch_size" positive_value None (ce_batch_size c) /\
  value_in [config] "samples_per_generation" positive_value None (ce_samples c) /\
  value_in [config] "number_of_generations" positive_value None (ce_generations c) /\
  value_in [config] "elite_proportion" float_value None (ce_elite c) /\ between_0_1 (ce_elite c) /\
  value_in [config] "step_size" float_value None (ce_step c) /\ between_0_1 (ce_step c) /\
  tuner_described (cem_parameter_described apply formats) cp_code config (ce_players c) (ce_opponent c) (ce_parameters c) (ce_maker c).

Definition ints_value (v : pyval) (zs : list Z) : Prop := exists l, elements v l /\ Forall2 int_value l zs.
(** Not an integer, so that there are no jigos. *)
Definition fractional (f : pyfloat) : Prop := exists q, f = FNum q /\ forall z, ~ (q == inject_Z z)%Q.
Definition mcts_described {V} (apply : nat -> pyfloat -> option V) (formats : bytes -> V -> bool) (to_num : pyfloat -> num)
  (en : environment) (config : dict pyval) (c : mcts_control) : Prop :=
  description_is config (mt_description c) /\ players_described en config (mt_players c) /\
  game_described to_num [config] (mt_settings c) /\ playable (mt_settings c) /\
  value_in [config] "komi" float_value None (mt_komi c) /\ fractional (mt_komi c) /\
  value_in [config] "number_of_games" (none_or int_value) (Some None) (mt_number_of_games c) /\
  value_in [config] "candidate_colour" candidate_colour_value None (mt_colour c) /\
  value_in [config] "log_tree_to_history_period" (none_or positive_value) (Some None) (mt_log_period c) /\
  value_in [config] "summary_spec" ints_value (Some [30]) (mt_summary c) /\
  value_in [config] "number_of_running_simulations_to_show" int_value (Some 12) (mt_show c) /\
  tuner_described (mcts_parameter_described apply formats) mp_code config (mt_players c) (mt_opponent c) (mt_parameters c) (mt_maker c) /\
  value_in [config] "max_depth" positive_value (Some 1) (mt_max_depth c) /\
  value_in [config] "exploration_coefficient" float_value None (mt_exploration c) /\
  value_in [config] "initial_visits" positive_value None (mt_initial_visits c) /\
  value_in [config] "initial_wins" positive_value None (mt_initial_wins c).

(** The player that the control file's make_candidate function describes. *)
Definition candidate_described {V} (make : nat -> list V -> option pyval) (en : environment) (maker : nat) (code : bytes) (l : list V) (p : player) : Prop :=
  exists args kwargs, make maker l = Some (VConfig (str "Player") args kwargs) /\ player_described en code args kwargs p.
Definition proper_candidates {V} (make : nat -> list V -> option pyval) (maker : nat) : Prop := forall l v, make maker l = Some v -> proper_call v.
Definition finite_number (f : pyfloat) : Prop := exists q, f = FNum q.
(** Errors; a komi that isn't a finite number isn't handled. *)
Definition mcts_error (config : dict pyval) (e : serr) : Prop :=
  control_file_error config ["komi"%string; "exploration_coefficient"%string] e \/
  (e = SOther OverflowError /\ exists n, value_in [config] "komi" float_value None (FInf n)) \/
  ((exists t, e = SValue t) /\ value_in [config] "komi" float_value None FNan).
