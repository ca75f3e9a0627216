(** Model of the records of GTP games: gomill/gtp_games.py:140-167 (describe_scoring) and 553-575
    (Gtp_game.make_sgf), gomill/game_jobs.py:293-397 (the SGF files of Game_job). *)
From Verif Require Import Base Bytes PyStr Dict BoardModel CommonModel SgfPropsModel SgfTreeModel GameplayModel
  ControllerModel GtpGameModel EngineModel GameSgfModel.

(** ** gtp_games.py:140-167 *)

(** [s.endswith(".0")], and [s[:-2]]. *)
Definition drop_point_zero (s : bytes) : bytes :=
  match rev s with
  | z :: p :: r => if ceqb z "0"%char && ceqb p "."%char then rev r else s
  | _ => s
  end.

(** gtp_games.py:150-154 [normalise_score]. *)
Definition normalise_score (s : bytes) : bytes := drop_point_zero (map upper_char s).

(** gtp_games.py:140-167 [describe_scoring].  [scores] are the [player_scores] of the game score
    (black, white), if there is a game score. *)
Definition describe_scoring (result : game_result) (scores : option (option bytes * option bytes)) : bytes :=
  let differs (s : option bytes) :=
    match s with Some t => negb (bytes_eqb (normalise_score t) (r_sgf (gr_base result))) | None => false end in
  let score_line (code : bytes) (s : option bytes) :=
    match s with Some t => [code ++ str " final_score: " ++ t] | None => [] end in
  join [char_lf]
    (describe result ::
     match scores with
     | None => []
     | Some (b, w) =>
         if differs b || differs w then score_line (gr_player_b result) b ++ score_line (gr_player_w result) w else []
     end).

(** The [player_scores] of the game's score (gtp_games.py:131, 321-322): if a player was asked more
    than once, the last response; the internal scorer leaves them unset. *)
Definition player_score {X} (s : gbackend X) (c : colour) : option bytes :=
  if gb_internal s then None
  else match List.find (fun x => colour_eqb c (fst x)) (rev (gb_raw s)) with Some (_, t) => Some t | None => None end.
Definition game_scores {X} (g : gtp_game X) : option (option bytes * option bytes) :=
  match ru_score (ga_runner g) with
  | None => None
  | Some _ => Some (player_score (ga_backend g) Black, player_score (ga_backend g) White)
  end.

(** ** gtp_games.py:553-575 *)

Section Record.
Variable version today : bytes.
(** [game_controller.engine_descriptions]. *)
Variable engines : colour -> engine.

(** [ed.get_short_description() or self.game_controller.players[colour]]. *)
Definition player_name (code : bytes) (e : engine) : bytes :=
  match short_description e with Some (c :: r) => c :: r | _ => code end.

(** [if self.game_id: ...]. *)
Definition truthy (s : option bytes) : option bytes := match s with Some (c :: r) => Some (c :: r) | _ => None end.

(** gtp_games.py:553-575 [make_sgf]. *)
Definition gtp_make_sgf {X} (g : gtp_game X) (w : world) : outcome :=
  let gc := gb_gc (ga_backend g) in
  let sg := new_sgf (ru_size (ga_runner g)) w in
  let root := g_root sg in
  then_do (make_sgf version today (ga_runner g) w) (fun w1 =>
  then_do (set_prop w1 root (str "PB") (VText (player_name (g_code_b gc) (engines Black)))) (fun w2 =>
  then_do (set_prop w2 root (str "PW") (VText (player_name (g_code_w gc) (engines White)))) (fun w3 =>
  then_do (set_opt w3 root (str "GN") (option_map VText (truthy (ga_id g)))) (fun w4 =>
  match ga_result g with
  | None => done w4
  | Some result => on_last w4 sg (fun n => add_comment_text w4 n (describe_scoring result (game_scores g)))
  end)))).

(** ** game_jobs.py:293-397 *)

(** game_jobs.py:12-51: the attributes of Player.  Left out: discard_stderr. *)
Record gplayer : Type := mkPlayer {
  gp_code : bytes;
  gp_reliable : bool;
  gp_claims : bool;
  gp_aliases : dict bytes;
  gp_startup : list (bytes * list bytes);
  gp_name_from_gtp : bool;
  gp_cmd : list bytes;
  gp_environ : option (dict bytes);
  gp_cwd : option bytes
}.

(** game_jobs.py:105-169: the attributes of Game_job.  [gj_komi_text] is [str(komi)].  Left out:
    game_data (returned unchanged) and the pathnames of the logs. *)
Record game_job : Type := mkGameJob {
  gj_id : bytes;
  gj_b : gplayer;
  gj_w : gplayer;
  gj_size : Z;
  gj_komi : num;
  gj_komi_text : bytes;
  gj_limit : Z;
  gj_handicap : option Z;
  gj_free : bool;
  gj_internal : bool;
  gj_comp : compensation;
  gj_filename : option bytes;
  gj_dirname : option bytes;
  gj_void_dirname : option bytes;
  gj_name : option bytes;
  gj_event : option bytes;
  gj_note : option bytes
}.

(** ["%.2f" % cpu_time], and [datetime.datetime.now().strftime("%Y-%m-%d %H:%M")]. *)
Variable cpu_text : pfloat -> bytes.
Variable now : bytes.

Definition opt_list {A} (o : option A) : list A := match o with Some x => [x] | None => [] end.

(** game_jobs.py:340-346: the note about one player. *)
Definition player_note (word : bytes) (p : gplayer) (e : engine) : bytes :=
  word ++ str " " ++ gp_code p ++
  match long_description e with Some (c :: r) => str " " ++ c :: r | _ => [] end.

(** game_jobs.py:331-338: the notes about the cpu times. *)
Definition cpu_note (code : bytes) (t : option pfloat) : list bytes :=
  match t with Some x => [code ++ str " cpu time: " ++ cpu_text x ++ str "s"] | None => [] end.

(** game_jobs.py:314-347: the notes.  [several]: the root is not the last node. *)
Definition job_notes (j : game_job) (result : option game_result) (several : bool) : list bytes :=
  match gj_event j with Some ev => [str "Event: " ++ ev] | None => [] end ++
  [str "Game id " ++ gj_id j; str "Date " ++ now] ++
  match result with Some r => if several then [str "Result " ++ describe r] else [] | None => [] end ++
  opt_list (gj_note j) ++
  match result with
  | Some r => cpu_note (gp_code (gj_b j)) (gr_cpu_b r) ++ cpu_note (gp_code (gj_w j)) (gr_cpu_w r)
  | None => []
  end ++
  [player_note (str "Black") (gj_b j) (engines Black); player_note (str "White") (gj_w j) (engines White)].

(** game_jobs.py:350-354: the notes are put before the root comment. *)
Definition prepend_notes (w : world) (n : nat) (notes : list bytes) : outcome :=
  if has_property w n (str "C") then
    match get_prop w n (str "C") with
    | Err e => raise w e
    | Ok (VText old) => set_prop w n (str "C") (VText (join [char_lf] (notes ++ [[]; old])))
    | Ok _ => raise w TypeError
    end
  else set_prop w n (str "C") (VText (join [char_lf] notes)).

Definition comment_opt (w : world) (n : nat) (s : option bytes) : outcome :=
  match s with None => done w | Some t => add_comment_text w n t end.

(** game_jobs.py:293-361 [_make_sgf]. *)
Definition job_make_sgf {X} (j : game_job) (g : gtp_game X) (message : option bytes) (w : world) : outcome :=
  let sg := new_sgf (ru_size (ga_runner g)) w in
  let root := g_root sg in
  then_do (gtp_make_sgf g w) (fun w1 =>
  on_last w1 sg (fun last =>
  then_do (set_opt w1 root (str "GN") (option_map VText (gj_name j))) (fun w2 =>
  then_do (set_opt w2 root (str "EV") (option_map VText (gj_event j))) (fun w3 =>
  then_do (set_opt w3 root (str "PB") (if gp_name_from_gtp (gj_b j) then None else Some (VText (gp_code (gj_b j))))) (fun w4 =>
  then_do (set_opt w4 root (str "PW") (if gp_name_from_gtp (gj_w j) then None else Some (VText (gp_code (gj_w j))))) (fun w5 =>
  then_do (prepend_notes w5 root (job_notes j (ga_result g) (negb (Nat.eqb root last)))) (fun w6 =>
  then_do (comment_opt w6 last message) (fun w7 =>
  comment_opt w7 last (describe_late_errors (gb_gc (ga_backend g))))))))))).

(** What was written: a file's pathname and contents. *)
Definition written : Type := option (bytes * bytes).

(** [os.path.join(a, b)]. *)
Definition os_join (a b : bytes) : bytes :=
  match b with
  | "/"%char :: _ => b
  | _ => match rev a with [] => b | c :: _ => if ceqb c "/"%char then a ++ b else a ++ str "/" ++ b end
  end.

(** game_jobs.py:369, 385, 387-392 [_write_sgf].  Simplification: writing succeeds. *)
Definition write_sgf (path : bytes) (w : world) (sg : game) : world * res written :=
  match serialise_game w sg (Some 79) with
  | Ok text => (w, Ok (Some (path, text)))
  | Err e => (w, Err e)
  end.

Definition then_write (o : outcome) (f : world -> world * res written) : world * res written :=
  match o with (w, Ok _) => f w | (w, Err e) => (w, Err e) end.

(** game_jobs.py:363-369 [_record_game]. *)
Definition record_finished {X} (j : game_job) (g : gtp_game X) (w : world) : world * res written :=
  match gj_dirname j, gj_filename j with
  | Some dir, Some file =>
      then_write (job_make_sgf j g None w) (fun w1 =>
      write_sgf (os_join dir file) w1 (new_sgf (ru_size (ga_runner g)) w))
  | _, _ => (w, Ok None)
  end.

(** game_jobs.py:371-385 [_record_void_game].  Simplification: creating the directory succeeds. *)
Definition record_void {X} (j : game_job) (g : gtp_game X) (message : bytes) (w : world) : world * res written :=
  match ru_moves (ga_runner g) with
  | [] => (w, Ok None)
  | _ =>
      match gj_void_dirname j, gj_filename j with
      | Some dir, Some file =>
          let sg := new_sgf (ru_size (ga_runner g)) w in
          then_write (then_do (job_make_sgf j g (Some message) w) (fun w1 => set_prop w1 (g_root sg) (str "RE") (VText (str "Void"))))
            (fun w2 => write_sgf (os_join dir file) w2 sg)
      | _, _ => (w, Ok None)
      end
  end.
End Record.
