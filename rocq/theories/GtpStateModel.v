(** Model of gomill/gtp_states.py (class Gtp_state) and of the parts of gomill/sgf.py that its
    loadsgf command reads (get_size, get_komi, get_handicap). *)
From Verif Require Import Base Bytes PyStr Dict BoardModel CommonModel SgfPropsModel SgfTreeModel SgfMovesModel
  GtpModel.

(** ** sgf.py: information about a game *)

(** sgf.py:739-750 [get_komi]. *)
Definition get_komi (w : world) (g : game) : res (Z * nat) :=
  match get_prop w (g_root g) (str "KM") with
  | Ok (VReal m k) => Ok (m, k)
  | Ok _ => Err TypeError               (* only if the property types were changed *)
  | Err KeyError => Ok (0, O)
  | Err e => Err e
  end.

(** sgf.py:752-769 [get_handicap]. *)
Definition get_handicap (w : world) (g : game) : res (option Z) :=
  match get_prop w (g_root g) (str "HA") with
  | Ok (VInt n) => if n =? 0 then Ok None else if n =? 1 then Err ValueError else Ok (Some n)
  | Ok _ => Err TypeError               (* only if the property types were changed *)
  | Err KeyError => Ok None
  | Err e => Err e
  end.

(** ** gtp_states.py *)

(** gtp_states.py:17-44 [History_move].  Cookies are arbitrary values; here byte strings. *)
Record hmove : Type := mkH {
  h_colour : colour;
  h_move : gmove;
  h_comments : option bytes;
  h_cookie : option bytes
}.

(** gtp_states.py:47-108 [Game_state]: what a move generator is given. *)
Record game_state : Type := mkGS {
  gs_size : Z;
  gs_board : board;
  gs_komi : Z * nat;
  gs_base : board;
  gs_history : list hmove;
  gs_ko : option point;
  gs_handicap : option Z;
  gs_regression : bool;
  gs_time_settings : option (Z * Z * Z);
  gs_time_remaining : option Z;
  gs_stones_remaining : option Z
}.

(** gtp_states.py:110-136 [Move_generator_result]. *)
Record generated : Type := mkGen {
  gen_resign : bool;
  gen_pass : bool;
  gen_move : option point;
  gen_claim : bool;
  gen_comments : option bytes;
  gen_cookie : option bytes
}.

(** A move generator returns a result or raises an exception; it doesn't change what it is
    given.  Each call may behave differently (the generator is a parameter of each command). *)
Definition generator : Type := game_state -> colour -> res generated.

(** gtp_states.py:168-193: the attributes of a Gtp_state.  Floats are exact decimals. *)
Record gstate : Type := mkS {
  st_sizes : list Z;                        (* acceptable_sizes *)
  st_size : Z;                              (* board_size *)
  st_board : board;
  st_handicap : option Z;
  st_ko : option point;                     (* simple_ko_point *)
  st_ko_player : option colour;
  st_base : board;                          (* history_base *)
  st_history : list hmove;                  (* move_history *)
  st_komi : Z * nat;
  st_time_settings : option (Z * Z * Z);
  st_time_b : option Z * option Z;          (* time_status['b'] *)
  st_time_w : option Z * option Z
}.

Definition with_size (st : gstate) (n : Z) : gstate :=
  mkS (st_sizes st) n (st_board st) (st_handicap st) (st_ko st) (st_ko_player st) (st_base st)
      (st_history st) (st_komi st) (st_time_settings st) (st_time_b st) (st_time_w st).
Definition with_board (st : gstate) (b : board) : gstate :=
  mkS (st_sizes st) (st_size st) b (st_handicap st) (st_ko st) (st_ko_player st) (st_base st)
      (st_history st) (st_komi st) (st_time_settings st) (st_time_b st) (st_time_w st).
Definition with_handicap (st : gstate) (h : option Z) : gstate :=
  mkS (st_sizes st) (st_size st) (st_board st) h (st_ko st) (st_ko_player st) (st_base st)
      (st_history st) (st_komi st) (st_time_settings st) (st_time_b st) (st_time_w st).
Definition with_ko (st : gstate) (k : option point) : gstate :=
  mkS (st_sizes st) (st_size st) (st_board st) (st_handicap st) k (st_ko_player st) (st_base st)
      (st_history st) (st_komi st) (st_time_settings st) (st_time_b st) (st_time_w st).
Definition with_ko_player (st : gstate) (c : option colour) : gstate :=
  mkS (st_sizes st) (st_size st) (st_board st) (st_handicap st) (st_ko st) c (st_base st)
      (st_history st) (st_komi st) (st_time_settings st) (st_time_b st) (st_time_w st).
Definition with_base (st : gstate) (b : board) : gstate :=
  mkS (st_sizes st) (st_size st) (st_board st) (st_handicap st) (st_ko st) (st_ko_player st) b
      (st_history st) (st_komi st) (st_time_settings st) (st_time_b st) (st_time_w st).
Definition with_history (st : gstate) (h : list hmove) : gstate :=
  mkS (st_sizes st) (st_size st) (st_board st) (st_handicap st) (st_ko st) (st_ko_player st) (st_base st)
      h (st_komi st) (st_time_settings st) (st_time_b st) (st_time_w st).
Definition with_komi (st : gstate) (k : Z * nat) : gstate :=
  mkS (st_sizes st) (st_size st) (st_board st) (st_handicap st) (st_ko st) (st_ko_player st) (st_base st)
      (st_history st) k (st_time_settings st) (st_time_b st) (st_time_w st).
Definition with_time_settings (st : gstate) (t : option (Z * Z * Z)) : gstate :=
  mkS (st_sizes st) (st_size st) (st_board st) (st_handicap st) (st_ko st) (st_ko_player st) (st_base st)
      (st_history st) (st_komi st) t (st_time_b st) (st_time_w st).
Definition time_status (st : gstate) (c : colour) : option Z * option Z :=
  match c with Black => st_time_b st | White => st_time_w st end.
Definition with_time_status (st : gstate) (c : colour) (t : option Z * option Z) : gstate :=
  mkS (st_sizes st) (st_size st) (st_board st) (st_handicap st) (st_ko st) (st_ko_player st) (st_base st)
      (st_history st) (st_komi st) (st_time_settings st)
      (match c with Black => t | White => st_time_b st end)
      (match c with Black => st_time_w st | White => t end).

(** What a handler leaves behind and what it returns or raises. *)
Definition handled : Type := (gstate * gres (option bytes))%type.

(** An exception that the handler doesn't catch; the text of the traceback is not modelled. *)
Definition uncaught {A} (e : exn) : gres A := GRaise (str "traceback").

Definition lift {A} (r : res A) : gres A := match r with Ok a => GOk a | Err e => uncaught e end.

(** gtp_states.py:184-193 [reset].  Board raises ValueError for a size less than 2, before
    anything is assigned. *)
Definition reset (st : gstate) : gstate * res unit :=
  match new_board (st_size st) with
  | Err e => (st, Err e)
  | Ok b =>
      (with_history (with_base (with_ko_player (with_ko (with_handicap (with_board st b) None) None) None) b) [],
       Ok tt)
  end.

(** [min(l)]. *)
Definition py_min (l : list Z) : res Z :=
  match l with [] => Err ValueError | x :: r => Ok (fold_left Z.min r x) end.

(** gtp_states.py:168-182 [Gtp_state(move_generator, acceptable_sizes)]; None is the
    default, 19 only. *)
Definition new_state (acceptable_sizes : option (list Z)) : res gstate :=
  let sizes := match acceptable_sizes with None => [19] | Some l => l end in
  do size <- py_min sizes;
  do b <- new_board size;
  Ok (mkS sizes size b None None None b [] (0, O) None (None, None) (None, None)).

(** gtp_states.py:195-204 [set_history_base]. *)
Definition set_history_base (st : gstate) (b : board) : gstate :=
  with_history (with_base st b) [].

(** gtp_states.py:217-227: the loop of [reset_to_moves]; the locals are the ko point and the
    player it is banned for.  Note that a pass assigns the attribute and not the local. *)
Fixpoint play_moves (pick : nat -> nat) (st : gstate) (l : list hmove) (ko : option point) (player : option colour)
  : gstate * res (option point * option colour) :=
  match l with
  | [] => (st, Ok (ko, player))
  | h :: r =>
      match h_move h with
      | None => play_moves pick (with_ko st None) r ko player
      | Some (row, col) =>
          match play pick (st_board st) row col (h_colour h) with
          | (b, Ok ko') => play_moves pick (with_board st b) r ko' (Some (opponent_of (h_colour h)))
          | (b, Err e) => (with_board st b, Err e)
          end
      end
  end.

(** gtp_states.py:206-230 [reset_to_moves]. *)
Definition reset_to_moves (pick : nat -> nat) (st : gstate) (l : list hmove) : gstate * res unit :=
  match copy (st_base st) with
  | Err e => (st, Err e)
  | Ok b =>
      match play_moves pick (with_board st b) l None None with
      | (st1, Err e) => (st1, Err e)
      | (st1, Ok (ko, player)) =>
          (with_history (with_ko_player (with_ko st1 ko) player) l, Ok tt)
      end
  end.

(** gtp_states.py:232-238 [set_komi]. *)
Definition set_komi (st : gstate) (f : Z * nat) : gstate :=
  let (m, k) := f in
  let max_komi := 625 * 10 ^ Z.of_nat k in
  with_komi st (if m <? - max_komi then (-625, O) else if max_komi <? m then (625, O) else (m, k)).

(** Call [f] on the first argument; [args[0]] of no arguments is IndexError, which the
    handlers turn into "invalid arguments". *)
Definition first_arg {A} (f : bytes -> gres A) (args : list bytes) : gres A :=
  match args with [] => report_bad_arguments | a :: _ => f a end.

(** Go on with a value, or stop with what was raised. *)
Definition get_or {A} (st : gstate) (r : gres A) (k : A -> handled) : handled :=
  match r with
  | GOk a => k a
  | GError s => (st, GError s) | GFatal s => (st, GFatal s) | GQuit s => (st, GQuit s)
  | GRaise s => (st, GRaise s)
  end.

Definition reset_then (st : gstate) (r : gres (option bytes)) : handled :=
  match reset st with (st', Ok _) => (st', r) | (st', Err e) => (st', uncaught e) end.

(** gtp_states.py:240-248. *)
Definition handle_boardsize (st : gstate) (args : list bytes) : handled :=
  get_or st (first_arg interpret_int args) (fun size =>
  if negb (existsb (Z.eqb size) (st_sizes st)) then (st, GError (str "unacceptable size"))
  else reset_then (with_size st size) (GOk None)).

(** gtp_states.py:250-251. *)
Definition handle_clear_board (st : gstate) (args : list bytes) : handled :=
  reset_then st (GOk None).

(** gtp_states.py:253-258. *)
Definition handle_komi (st : gstate) (args : list bytes) : handled :=
  get_or st (first_arg interpret_float args) (fun f => (set_komi st f, GOk None)).

(** [for row, col in points: self.board.play(row, col, 'b')]. *)
Fixpoint place_black (pick : nat -> nat) (b : board) (pts : list point) : board * res unit :=
  match pts with
  | [] => (b, Ok tt)
  | (row, col) :: r =>
      match play pick b row col Black with
      | (b', Ok _) => place_black pick b' r
      | (b', Err e) => (b', Err e)
      end
  end.

(** [" ".join(format_vertex((row, col)) for (row, col) in points)]. *)
Definition vertex_list (pts : list point) : res bytes :=
  do l <- mapm (fun p => format_vertex (Some p)) pts; Ok (join (str " ") l).

(** gtp_states.py:260-278. *)
Definition handle_fixed_handicap (pick : nat -> nat) (st : gstate) (args : list bytes) : handled :=
  get_or st (first_arg interpret_int args) (fun n =>
  if negb (is_empty (st_board st)) then (st, GError (str "board not empty"))
  else
    match handicap_points n (st_size st) with
    | Err ValueError => (st, GError (str "invalid number of stones"))
    | Err e => (st, uncaught e)
    | Ok points =>
        match place_black pick (st_board st) points with
        | (b, Err e) => (with_board st b, uncaught e)
        | (b, Ok _) =>
            let st1 := with_handicap (with_ko (with_board st b) None) (Some n) in
            match copy b with
            | Err e => (st1, uncaught e)
            | Ok b' => (set_history_base st1 b', gbind (lift (vertex_list points)) (fun s => GOk (Some s)))
            end
        end
    end).

(** gtp_states.py:287-296: the loop of handle_set_free_handicap. *)
Fixpoint place_vertices (pick : nat -> nat) (size : Z) (b : board) (args : list bytes) : board * gres unit :=
  match args with
  | [] => (b, GOk tt)
  | vertex_s :: r =>
      match interpret_vertex vertex_s size with
      | GOk None => (b, GError (str "'pass' not permitted"))
      | GOk (Some (row, col)) =>
          match play pick b row col Black with
          | (b', Ok _) => place_vertices pick size b' r
          | (b', Err ValueError) => (b', GError (str "engine error: " ++ vertex_s ++ str " is occupied"))
          | (b', Err e) => (b', uncaught e)
          end
      | GError s => (b, GError s) | GFatal s => (b, GFatal s) | GQuit s => (b, GQuit s)
      | GRaise s => (b, GRaise s)
      end
  end.

(** gtp_states.py:280-302. *)
Definition handle_set_free_handicap (pick : nat -> nat) (st : gstate) (args : list bytes) : handled :=
  let n := Z.of_nat (List.length args) in
  if negb ((2 <=? n) && (n <=? max_free_handicap (st_size st))) then (st, GError (str "invalid number of stones"))
  else if negb (is_empty (st_board st)) then (st, GError (str "board not empty"))
  else
    match place_vertices pick (st_size st) (st_board st) args with
    | (b, GOk _) =>
        match copy b with
        | Err e => (with_board st b, uncaught e)
        | Ok b' => (with_ko (with_handicap (set_history_base (with_board st b) b') (Some n)) None, GOk None)
        end
    | (b, GError s) => reset_then (with_board st b) (GError s)
    | (b, GFatal s) => reset_then (with_board st b) (GFatal s)
    | (b, GQuit s) => reset_then (with_board st b) (GQuit s)
    | (b, GRaise s) => reset_then (with_board st b) (GRaise s)
    end.

(** gtp_states.py:304-308. *)
Definition choose_free_handicap_moves (st : gstate) (n : Z) : res (list point) :=
  do m <- max_fixed_handicap (st_size st); handicap_points (Z.min n m) (st_size st).

(** gtp_states.py:310-340. *)
Definition handle_place_free_handicap (pick : nat -> nat) (st : gstate) (args : list bytes) : handled :=
  get_or st (first_arg interpret_int args) (fun n0 =>
  let max_points := max_free_handicap (st_size st) in
  if negb ((2 <=? n0) && (n0 <=? max_points)) then (st, GError (str "invalid number of stones"))
  else if negb (is_empty (st_board st)) then (st, GError (str "board not empty"))
  else
    let n := if n0 =? max_points then max_points - 1 else n0 in
    match choose_free_handicap_moves st n with
    | Err e => (st, uncaught e)
    | Ok moves =>
        let invalid := gbind (lift (format_vertex_list (map Some moves)))
                         (fun s => GError (str "invalid result from move generator: " ++ s)) in
        if n <? Z.of_nat (List.length moves) then reset_then st invalid
        else
          match place_black pick (st_board st) moves with
          | (b, Err ValueError) | (b, Err TypeError) => reset_then (with_board st b) invalid
          | (b, Err e) => reset_then (with_board st b) (uncaught e)
          | (b, Ok _) =>
              let st1 := with_handicap (with_ko (with_board st b) None) (Some n) in
              match copy b with
              | Err e => (st1, uncaught e)
              | Ok b' => (set_history_base st1 b', gbind (lift (vertex_list moves)) (fun s => GOk (Some s)))
              end
          end
    end).

Definition add_move (st : gstate) (h : hmove) : gstate := with_history st (st_history st ++ [h]).

(** gtp_states.py:342-359. *)
Definition handle_play (pick : nat -> nat) (st : gstate) (args : list bytes) : handled :=
  match args with
  | colour_s :: vertex_s :: _ =>
      get_or st (interpret_colour colour_s) (fun c =>
      get_or st (interpret_vertex vertex_s (st_size st)) (fun m =>
      match m with
      | None => (add_move (with_ko st None) (mkH c None None None), GOk None)
      | Some (row, col) =>
          match play pick (st_board st) row col c with
          | (b, Ok ko) =>
              (add_move (with_ko_player (with_ko (with_board st b) ko) (Some (opponent_of c)))
                        (mkH c m None None), GOk None)
          | (b, Err ValueError) => (with_board st b, GError (str "illegal move"))
          | (b, Err e) => (with_board st b, uncaught e)
          end
      end))
  | _ => (st, report_bad_arguments)
  end.

(** gtp_states.py:361-362. *)
Definition handle_showboard (st : gstate) (args : list bytes) : handled :=
  (st, gbind (lift (render_board (st_board st))) (fun s => GOk (Some (char_lf :: s ++ [char_lf])))).

(** gtp_states.py:370-385: what the generator is given. *)
Definition state_for (st : gstate) (c : colour) (for_regression : bool) : game_state :=
  mkGS (st_size st) (st_board st) (st_komi st) (st_base st) (st_history st)
       (match st_ko st, st_ko_player st with
        | Some k, Some p => if colour_eqb p c then Some k else None
        | _, _ => None
        end)
       (st_handicap st) for_regression (st_time_settings st)
       (fst (time_status st c)) (snd (time_status st c)).

(** gtp_states.py:364-406 [_handle_genmove]. *)
Definition handle_genmove_common (pick : nat -> nat) (gen : generator) (for_regression allow_claim : bool)
    (st : gstate) (args : list bytes) : handled :=
  get_or st (first_arg interpret_colour args) (fun c =>
  match gen (state_for st c for_regression) c with
  | Err e => (st, uncaught e)
  | Ok g =>
      if allow_claim && gen_claim g then (st, GOk (Some (str "claim")))
      else if gen_resign g then (st, GOk (Some (str "resign")))
      else if gen_pass g then
        ((if for_regression then st else add_move st (mkH c None (gen_comments g) (gen_cookie g))),
         GOk (Some (str "pass")))
      else
        match gen_move g with
        | None => (st, uncaught TypeError)
        | Some (row, col) =>
            match format_vertex (Some (row, col)) with
            | Err e => (st, uncaught e)
            | Ok vertex =>
                if for_regression then (st, GOk (Some vertex))
                else
                  match play pick (st_board st) row col c with
                  | (b, Ok ko) =>
                      (add_move (with_ko_player (with_ko (with_board st b) ko) (Some (opponent_of c)))
                                (mkH c (Some (row, col)) (gen_comments g) (gen_cookie g)),
                       GOk (Some vertex))
                  | (b, Err ValueError) => (with_board st b, GError (str "engine error: tried to play " ++ vertex))
                  | (b, Err e) => (with_board st b, uncaught e)
                  end
            end
        end
  end).

(** gtp_states.py:408-421. *)
Definition handle_genmove pick gen := handle_genmove_common pick gen false false.
Definition handle_reg_genmove pick gen := handle_genmove_common pick gen true false.
Definition handle_genmove_ex (pick : nat -> nat) (gen : generator) (st : gstate) (args : list bytes) : handled :=
  match args with
  | [] => (st, GOk (Some (str "claim")))
  | a :: r => handle_genmove_common pick gen false (existsb (fun x => bytes_eqb x (str "claim")) r) st [a]
  end.

(** gtp_states.py:423-429. *)
Definition handle_undo (pick : nat -> nat) (st : gstate) (args : list bytes) : handled :=
  match st_history st with
  | [] => (st, GError (str "cannot undo"))
  | _ =>
      match reset_to_moves pick st (removelast (st_history st)) with
      | (st', Ok _) => (st', GOk None)
      | (st', Err ValueError) => (st', GError (str "corrupt history"))
      | (st', Err e) => (st', uncaught e)
      end
  end.

(** gtp_states.py:431-440 [_load_file]: the text of a file, with the encoding its CA property
    names (so that SgfTreeModel.load_string can be used); None if it can't be read, or if it
    names an encoding that doesn't exist (both are reported as "cannot load file"). *)
Definition files : Type := bytes -> option (bytes * encoding).

(** gtp_states.py:457-477: read a file: the size, and then the rest (the komi, the
    handicap, the setup and the moves), or the messages of the exceptions. *)
Definition read_file (pick : nat -> nat) (text : bytes) (e : encoding)
  : gres (Z * gres ((Z * nat) * option Z * board * list (colour * gmove))) :=
  match load_string empty_world text e false with
  | (_, Err ValueError) => GError (str "cannot load file")
  | (_, Err ex) => uncaught ex
  | (w, Ok _) =>
      match game_at w 0 with
      | None => uncaught AttributeError          (* unreachable *)
      | Some g =>
          GOk (g_size g,
            gbind (match get_komi w g with
                   | Err ValueError => GError (str "bad komi")
                   | Err ex => uncaught ex
                   | Ok k => GOk k
                   end) (fun komi =>
            gbind (match get_handicap w g with
                   | Err ValueError => GOk None
                   | Err ex => uncaught ex
                   | Ok h => GOk h
                   end) (fun handicap =>
            match get_setup_and_moves pick w g None with
            | (Some b, Ok plays) => GOk (komi, handicap, b, plays)
            | (None, Ok _) => uncaught AttributeError      (* unreachable *)
            | (_, Err ValueError) => GError (str "bad setup or move")   (* str(e): the exception's own message *)
            | (_, Err ex) => uncaught ex
            end)))
      end
  end.

(** gtp_states.py:442-499. *)
Definition handle_loadsgf (pick : nat -> nat) (fs : files) (st : gstate) (args : list bytes) : handled :=
  match args with
  | [] => (st, report_bad_arguments)
  | pathname :: rest =>
      get_or st (match rest with
                 | [] => GOk None
                 | a :: _ => gbind (interpret_int a) (fun n => GOk (Some n))
                 end) (fun move_number =>
      match fs pathname with
      | None => (st, GError (str "cannot load file"))
      | Some (text, e) =>
          get_or st (read_file pick text e) (fun file =>
          let (new_size, contents) := file in
          if negb (existsb (Z.eqb new_size) (st_sizes st)) then (st, GError (str "unacceptable size"))
          else
            let st1 := with_size st new_size in
            get_or st1 contents (fun c =>
            let '(komi, handicap, sgf_board, plays) := c in
            let history_moves := map (fun cm => mkH (fst cm) (snd cm) None None) plays in
            let new_history := match move_number with
                               | None => history_moves
                               | Some n => firstn (Z.to_nat (Z.max 0 (n - 1))) history_moves
                               end in
            match reset_to_moves pick (set_history_base st1 sgf_board) new_history with
            | (st2, Ok _) => (with_handicap (set_komi st2 komi) handicap, GOk None)
            | (st2, Err ValueError) =>
                match reset_to_moves pick (set_history_base st2 (st_base st)) (st_history st) with
                | (st3, Ok _) => (st3, GError (str "bad move in file"))
                | (st3, Err ValueError) => (st3, GError (str "bad move in file and corrupt history"))
                | (st3, Err ex) => (st3, uncaught ex)
                end
            | (st2, Err ex) => (st2, uncaught ex)
            end))
      end)
  end.

(** The three integers or colour of the time commands: [args[i]] beyond the end is
    IndexError, reported as "invalid arguments", after the arguments before it have been
    interpreted. *)
Definition nth_arg {A} (f : bytes -> gres A) (i : nat) (args : list bytes) : gres A :=
  match nth_error args i with None => report_bad_arguments | Some a => f a end.

(** gtp_states.py:501-511. *)
Definition handle_time_left (st : gstate) (args : list bytes) : handled :=
  get_or st (nth_arg interpret_colour 0 args) (fun c =>
  get_or st (nth_arg interpret_int 1 args) (fun time =>
  get_or st (nth_arg interpret_int 2 args) (fun stones =>
  (with_time_status st c (Some time, if stones =? 0 then None else Some stones), GOk None)))).

(** gtp_states.py:513-520. *)
Definition handle_time_settings (st : gstate) (args : list bytes) : handled :=
  get_or st (nth_arg interpret_int 0 args) (fun m =>
  get_or st (nth_arg interpret_int 1 args) (fun b =>
  get_or st (nth_arg interpret_int 2 args) (fun s =>
  (with_time_settings st (Some (m, b, s)), GOk None)))).

(** gtp_states.py:522-526. *)
Definition handle_explain_last_move (st : gstate) (args : list bytes) : handled :=
  (st, GOk match rev (st_history st) with [] => None | h :: _ => h_comments h end).

(** gtp_states.py:576-604 [get_handlers] and [get_time_handlers]: the commands, except
    gomill-savesgf (see SaveModel). *)
Inductive command : Type :=
| Boardsize | Clear_board | Komi | Fixed_handicap | Set_free_handicap | Place_free_handicap
| Play | Genmove | Genmove_ex | Reg_genmove | Undo | Showboard | Loadsgf | Explain_last_move
| Time_left | Time_settings.

Definition command_name (c : command) : bytes :=
  match c with
  | Boardsize => str "boardsize" | Clear_board => str "clear_board" | Komi => str "komi"
  | Fixed_handicap => str "fixed_handicap" | Set_free_handicap => str "set_free_handicap"
  | Place_free_handicap => str "place_free_handicap" | Play => str "play" | Genmove => str "genmove"
  | Genmove_ex => str "gomill-genmove_ex" | Reg_genmove => str "reg_genmove" | Undo => str "undo"
  | Showboard => str "showboard" | Loadsgf => str "loadsgf"
  | Explain_last_move => str "gomill-explain_last_move"
  | Time_left => str "time_left" | Time_settings => str "time_settings"
  end.

(** What surrounds a command: the pop order of Python's sets, the move generator and the
    files, all arbitrary. *)
Record surroundings : Type := mkEnv {
  env_pick : nat -> nat;
  env_gen : generator;
  env_files : files
}.

Definition handle (env : surroundings) (c : command) : gstate -> list bytes -> handled :=
  match c with
  | Boardsize => handle_boardsize
  | Clear_board => handle_clear_board
  | Komi => handle_komi
  | Fixed_handicap => handle_fixed_handicap (env_pick env)
  | Set_free_handicap => handle_set_free_handicap (env_pick env)
  | Place_free_handicap => handle_place_free_handicap (env_pick env)
  | Play => handle_play (env_pick env)
  | Genmove => handle_genmove (env_pick env) (env_gen env)
  | Genmove_ex => handle_genmove_ex (env_pick env) (env_gen env)
  | Reg_genmove => handle_reg_genmove (env_pick env) (env_gen env)
  | Undo => handle_undo (env_pick env)
  | Showboard => handle_showboard
  | Loadsgf => handle_loadsgf (env_pick env) (env_files env)
  | Explain_last_move => handle_explain_last_move
  | Time_left => handle_time_left
  | Time_settings => handle_time_settings
  end.

(** gtp_states.py:606-625 [get_last_move]: (move_is_available, move). *)
Definition get_last_move (history : list hmove) (player : colour) : bool * gmove :=
  match rev history with
  | [] => (false, None)
  | h :: _ => if colour_eqb (h_colour h) (opponent_of player) then (true, h_move h) else (false, None)
  end.

(** gtp_states.py:627-650 [get_last_move_and_cookie]. *)
Definition get_last_move_and_cookie (history : list hmove) (player : colour) : bool * gmove * option bytes :=
  let (available, m) := get_last_move history player in
  (available, m,
   if available then
     match rev history with
     | _ :: h :: _ => if colour_eqb (h_colour h) player then h_cookie h else None
     | _ => None
     end
   else None).
