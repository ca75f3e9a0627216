(** Model of gomill/gtp_controller.py:891-1171 (Game_controller) and of gomill/gtp_games.py. *)
From Verif Require Import Base Bytes PyStr Dict BoardModel CommonModel SgfPropsModel GameplayModel GtpModel ControllerModel.

(** ** Floats *)

(** The values [float(s)] can have.  Simplification: finite values are exact decimals. *)
Inductive pfloat : Type := FNum (x : num) | FInf (negative : bool) | FNan.

(** [float(s)], [None] standing for ValueError.  Literals too large for binary64 are infinite,
    and those too small are zero. *)
Definition float_of (s : bytes) : option pfloat :=
  let (neg, r) := parse_sign (strip s) in
  let l := map lower_char r in
  if bytes_eqb l (str "inf") || bytes_eqb l (str "infinity") then Some (FInf neg)
  else if bytes_eqb l (str "nan") then Some FNan
  else
    match py_float s with
    | Err _ => None
    | Ok (m, k) =>
        Some (if (2 ^ 1024 - 2 ^ 970) * 10 ^ Z.of_nat k <=? Z.abs m then FInf (m <? 0)
              else if Z.abs m * 2 ^ 1075 <=? 10 ^ Z.of_nat k then FNum (0, O)
              else FNum (m, k))
    end.

(** [f <= 0]. *)
Definition not_positive (f : pfloat) : bool :=
  match f with FNum x => fst x <=? 0 | FInf neg => neg | FNan => false end.

(** [a == b] for numbers. *)
Definition num_eqb (a b : num) : bool :=
  fst a * 10 ^ Z.of_nat (snd b) =? fst b * 10 ^ Z.of_nat (snd a).
Definition pfloat_eqb (a b : pfloat) : bool :=
  match a, b with
  | FNum x, FNum y => num_eqb x y
  | FInf x, FInf y => Bool.eqb x y
  | _, _ => false
  end.

(** ** Game_controller *)

Section Games.
Context {X : Type}.
(** The channel to each player's engine. *)
Variable ch : colour -> channel X.
(** utils.py:45-69 [sanitise_utf8] on a byte string; the theorems hold for any function. *)
Variable sanitise : bytes -> bytes.

(** gtp_controller.py:930-939: the attributes of Game_controller, except engine_descriptions. *)
Record gctl : Type := mkGC {
  g_b : option (controller X);          (* controllers['b'], if set *)
  g_w : option (controller X);
  g_code_b : bytes;                     (* players *)
  g_code_w : bytes;
  g_cautious : bool;
  g_late : list bytes
}.

(** gtp_controller.py:930-939. *)
Definition new_gctl (code_b code_w : bytes) : res gctl :=
  if bytes_eqb code_b code_w then Err ValueError
  else Ok (mkGC None None code_b code_w false []).

Definition g_code (c : colour) (g : gctl) : bytes :=
  match c with Black => g_code_b g | White => g_code_w g end.
Definition g_get (c : colour) (g : gctl) : option (controller X) :=
  match c with Black => g_b g | White => g_w g end.
Definition g_put (c : colour) (k : controller X) (g : gctl) : gctl :=
  match c with
  | Black => mkGC (Some k) (g_w g) (g_code_b g) (g_code_w g) (g_cautious g) (g_late g)
  | White => mkGC (g_b g) (Some k) (g_code_b g) (g_code_w g) (g_cautious g) (g_late g)
  end.

(** gtp_controller.py:1002-1008. *)
Definition set_cautious_mode (b : bool) (g : gctl) : gctl :=
  mkGC (g_b g) (g_w g) (g_code_b g) (g_code_w g) b (g_late g).

(** Apply an operation to a player's controller; KeyError if there is none. *)
Definition on_player {A} (c : colour) (g : gctl) (f : controller X -> controller X * cres A) : gctl * cres A :=
  match g_get c g with
  | None => (g, CExn KeyError)
  | Some k => let (k', r) := f k in (g_put c k' g, r)
  end.

(** gtp_controller.py:1036-1039. *)
Definition late_message (c : colour) (g : gctl) : bytes :=
  str "late low-level error from player " ++ g_code c g.

(** gtp_controller.py:1018-1044 [send_command]. *)
Definition send_command (g : gctl) (c : colour) (command : bytes) (args : list bytes) : gctl * cres bytes :=
  if g_cautious g then
    match on_player c g (fun k => safe_do_command (ch c) k command args) with
    | (g', CRet None) => (g', CBad (late_message c g) None)
    | (g', CRet (Some text)) => (g', CRet text)
    | (g', CBad m x) => (g', CBad m x)
    | (g', CChan k m) => (g', CChan k m)
    | (g', CExn e) => (g', CExn e)
    end
  else on_player c g (fun k => do_command (ch c) k command args).

(** gtp_controller.py:1072-1083 [known_command]. *)
Definition g_known_command (g : gctl) (c : colour) (command : bytes) : gctl * cres bool :=
  on_player c g (fun k => if g_cautious g then safe_known_command (ch c) k command
                          else known_command (ch c) k command).

(** gtp_controller.py:1046-1070 [maybe_send_command]. *)
Definition maybe_send_command (g : gctl) (c : colour) (command : bytes) (args : list bytes)
  : gctl * cres (option bytes) :=
  match g_known_command g c command with
  | (g1, CRet true) =>
      match on_player c g1 (fun k => if g_cautious g then safe_do_command (ch c) k command args
                                     else plain_do_command (ch c) k command args) with
      | (g2, CBad _ _) => (g2, CRet None)
      | x => x
      end
  | (g1, CRet false) => (g1, CRet None)
  | (g1, CBad m x) => (g1, CBad m x)
  | (g1, CChan k m) => (g1, CChan k m)
  | (g1, CExn e) => (g1, CExn e)
  end.

(** gtp_controller.py:1091-1096: one player. *)
Definition close_player (c : colour) (g : gctl) : gctl * cres unit :=
  match g_get c g with
  | None => (g, CRet tt)
  | Some k =>
      match safe_close (ch c) k with
      | (k', CRet _) =>
          let g' := g_put c k' g in
          (mkGC (g_b g') (g_w g') (g_code_b g') (g_code_w g') (g_cautious g') (g_late g' ++ retrieve_error_messages k'),
           CRet tt)
      | (k', r) => (g_put c k' g, r)
      end
  end.

(** gtp_controller.py:1085-1096 [close_players]. *)
Definition close_players (g : gctl) : gctl * cres unit :=
  match close_player Black g with
  | (g1, CRet _) => close_player White g1
  | x => x
  end.

(** gtp_controller.py:1098-1114 [describe_late_errors]. *)
Definition describe_late_errors (g : gctl) : option bytes :=
  match g_late g with [] => None | l => Some (join [char_lf] l) end.

(** gtp_controller.py:1161-1170: one player; the time, and whether there was an error. *)
Definition cpu_time (c : colour) (g : gctl) : gctl * cres (option pfloat * bool) :=
  match g_known_command g c (str "gomill-cpu_time") with
  | (g1, CRet true) =>
      match maybe_send_command g1 c (str "gomill-cpu_time") [] with
      | (g2, CRet (Some s)) =>
          (g2, CRet (match float_of s with Some f => (Some f, false) | None => (None, true) end))
      | (g2, CRet None) => (g2, CRet (None, true))                       (* TypeError *)
      | (g2, CBad m x) => (g2, CBad m x)
      | (g2, CChan k m) => (g2, CChan k m)
      | (g2, CExn ValueError) | (g2, CExn TypeError) => (g2, CRet (None, true))
      | (g2, CExn e) => (g2, CExn e)
      end
  | (g1, CRet false) => (g1, CRet (None, false))
  | (g1, CBad m x) => (g1, CBad m x)
  | (g1, CChan k m) => (g1, CChan k m)
  | (g1, CExn e) => (g1, CExn e)
  end.

(** gtp_controller.py:1143-1171 [get_gtp_cpu_times], for black and white. *)
Definition get_gtp_cpu_times (g : gctl) : gctl * cres ((option pfloat * bool) * (option pfloat * bool)) :=
  match cpu_time Black g with
  | (g1, CRet b) =>
      match cpu_time White g1 with
      | (g2, CRet w) => (g2, CRet (b, w))
      | (g2, CBad m x) => (g2, CBad m x)
      | (g2, CChan k m) => (g2, CChan k m)
      | (g2, CExn e) => (g2, CExn e)
      end
  | (g1, CBad m x) => (g1, CBad m x)
  | (g1, CChan k m) => (g1, CChan k m)
  | (g1, CExn e) => (g1, CExn e)
  end.

(** ** The backend *)

(** gtp_games.py:177-189: the attributes of _Gtp_backend.  [gb_komi_text] is [str(komi)].  The
    last field holds the [player_scores] of the last scoring. *)
Record gbackend : Type := mkGB {
  gb_gc : gctl;
  gb_size : Z;
  gb_komi : num;
  gb_komi_text : bytes;
  gb_claim_b : bool;
  gb_claim_w : bool;
  gb_scorers : list colour;
  gb_internal : bool;
  gb_comp : compensation;
  gb_handicap : option Z;
  gb_raw : list (colour * bytes)
}.

Definition with_gc (g : gctl) (s : gbackend) : gbackend :=
  mkGB g (gb_size s) (gb_komi s) (gb_komi_text s) (gb_claim_b s) (gb_claim_w s) (gb_scorers s) (gb_internal s)
       (gb_comp s) (gb_handicap s) (gb_raw s).
Definition with_raw (l : list (colour * bytes)) (s : gbackend) : gbackend :=
  mkGB (gb_gc s) (gb_size s) (gb_komi s) (gb_komi_text s) (gb_claim_b s) (gb_claim_w s) (gb_scorers s)
       (gb_internal s) (gb_comp s) (gb_handicap s) l.

(** The exceptions a backend can raise, as seen by Game_runner: BadGtpResponse, the
    GtpChannelErrors, and the rest. *)
Definition bad_gtp : exn := OtherError 1.
Definition channel_error : exn := OtherError 2.
Definition other_exn (e : exn) : exn :=
  match e with OtherError n => OtherError (n + 3) | _ => e end.
Definition to_res {A} (r : cres A) : res A :=
  match r with
  | CRet a => Ok a
  | CBad _ _ => Err bad_gtp
  | CChan _ _ => Err channel_error
  | CExn e => Err (other_exn e)
  end.

Definition colour_letter (c : colour) : bytes := match c with Black => str "b" | White => str "w" end.

(** gtp_games.py:197-199: resetting one engine. *)
Definition start_player (s : gbackend) (c : colour) : gbackend * res unit :=
  match send_command (gb_gc s) c (str "boardsize") [str_int (gb_size s)] with
  | (g1, CRet _) =>
      match send_command g1 c (str "clear_board") [] with
      | (g2, CRet _) =>
          match send_command g2 c (str "komi") [gb_komi_text s] with
          | (g3, CRet _) => (with_gc g3 s, Ok tt)
          | (g3, r) => (with_gc g3 s, do _ <- to_res r; Ok tt)
          end
      | (g2, r) => (with_gc g2 s, do _ <- to_res r; Ok tt)
      end
  | (g1, r) => (with_gc g1 s, do _ <- to_res r; Ok tt)
  end.

(** gtp_games.py:191-199 [start_new_game]. *)
Definition start_new_game (board_size : Z) (komi : num) (s : gbackend) : gbackend * res unit :=
  if negb (board_size =? gb_size s) then (s, Err AssertionError)
  else if negb (num_eqb komi (gb_komi s)) then (s, Err AssertionError)
  else
    let s0 := with_gc (set_cautious_mode false (gb_gc s)) s in
    match start_player s0 Black with
    | (s1, Ok _) => start_player s1 White
    | x => x
    end.

(** gtp_games.py:201-202 [end_game]. *)
Definition end_game (s : gbackend) : gbackend * res unit :=
  (with_gc (set_cautious_mode true (gb_gc s)) s, Ok tt).

Definition handicap_is (n : Z) (s : gbackend) : bool :=
  match gb_handicap s with Some h => n =? h | None => false end.

Fixpoint all_points (l : list gmove) : option (list point) :=
  match l with
  | [] => Some []
  | Some p :: r => match all_points r with Some ps => Some (p :: ps) | None => None end
  | None :: _ => None
  end.

Fixpoint has_duplicate (l : list point) : bool :=
  match l with [] => false | p :: r => mem_point p r || has_duplicate r end.

(** gtp_games.py:204-219 [get_free_handicap]. *)
Definition get_free_handicap (handicap : Z) (s : gbackend) : gbackend * res (list point) :=
  if negb (handicap_is handicap s) then (s, Err AssertionError)
  else
    match send_command (gb_gc s) Black (str "place_free_handicap") [str_int handicap] with
    | (g1, CRet vertices) =>
        (with_gc g1 s,
         match mapm (fun v => move_from_vertex v (gb_size s)) (split_on char_sp vertices) with
         | Err _ => Err bad_gtp
         | Ok moves =>
             match all_points moves with
             | None => Err bad_gtp
             | Some pts => if has_duplicate pts then Err bad_gtp else Ok pts
             end
         end)
    | (g1, r) => (with_gc g1 s, do _ <- to_res r; Ok [])
    end.

(** gtp_games.py:221-223 [notify_free_handicap]. *)
Definition notify_free_handicap (pts : list point) (s : gbackend) : gbackend * res unit :=
  match mapm (fun p => format_vertex (Some p)) pts with
  | Err e => (s, Err e)
  | Ok vertices =>
      let (g1, r) := send_command (gb_gc s) White (str "set_free_handicap") vertices in
      (with_gc g1 s, do _ <- to_res r; Ok tt)
  end.

Definition mem_move (m : gmove) (l : list gmove) : bool :=
  existsb (fun x => match m, x with
                    | None, None => true | Some p, Some q => point_eqb p q | _, _ => false end) l.
(** [set(a) == set(b)]. *)
Definition same_set (a b : list gmove) : bool :=
  forallb (fun m => mem_move m b) a && forallb (fun m => mem_move m a) b.

(** gtp_games.py:225-236 [notify_fixed_handicap]. *)
Definition notify_fixed_handicap (c : colour) (handicap : Z) (pts : list point) (s : gbackend)
  : gbackend * res unit :=
  if negb (handicap_is handicap s) then (s, Err AssertionError)
  else
    match send_command (gb_gc s) c (str "fixed_handicap") [str_int handicap] with
    | (g1, CRet vertices) =>
        (with_gc g1 s,
         match mapm (fun v => move_from_vertex v (gb_size s)) (split_on char_sp vertices) with
         | Err _ => Err bad_gtp
         | Ok seen => if same_set seen (map Some pts) then Ok tt else Err bad_gtp
         end)
    | (g1, r) => (with_gc g1 s, do _ <- to_res r; Ok tt)
    end.

Definition claim_allowed (c : colour) (s : gbackend) : bool :=
  match c with Black => gb_claim_b s | White => gb_claim_w s end.

(** gtp_games.py:248-259: the genmove command and its response. *)
Definition ask_move (g : gctl) (c : colour) (size : Z) (may_claim : bool) (command : bytes) (args : list bytes)
  : gctl * res action :=
  match send_command g c command args with
  | (g1, CBad m _) => (g1, Ok (AForfeit m))
  | (g1, CRet raw_move) =>
      let move_s := map lower_char raw_move in
      (g1,
       if bytes_eqb move_s (str "resign") then Ok AResign
       else if may_claim && bytes_eqb move_s (str "claim") then Ok AClaim
       else match move_from_vertex move_s size with
            | Ok m => Ok (AMove m)
            | Err _ => Ok (AForfeit (str "attempted ill-formed move " ++ raw_move))
            end)
  | (g1, r) => (g1, do _ <- to_res r; Ok ABad)
  end.

(** gtp_games.py:238-259 [get_move]. *)
Definition get_move (c : colour) (s : gbackend) : gbackend * res action :=
  let plain (g : gctl) :=
    let (g2, r) := ask_move g c (gb_size s) false (str "genmove") [colour_letter c] in (with_gc g2 s, r) in
  if claim_allowed c s then
    match g_known_command (gb_gc s) c (str "gomill-genmove_ex") with
    | (g1, CRet true) =>
        let (g2, r) := ask_move g1 c (gb_size s) true (str "gomill-genmove_ex") [colour_letter c; str "claim"] in
        (with_gc g2 s, r)
    | (g1, CRet false) => plain g1
    | (g1, r) => (with_gc g1 s, do _ <- to_res r; Ok ABad)
    end
  else plain (gb_gc s).

(** gtp_games.py:261-266 [get_last_move_comment]. *)
Definition get_last_move_comment (c : colour) (s : gbackend) : gbackend * res (option bytes) :=
  let (g1, r) := maybe_send_command (gb_gc s) c (str "gomill-explain_last_move") [] in
  (with_gc g1 s,
   do t <- to_res r;
   Ok (match t with
       | None => None
       | Some text => match sanitise text with [] => None | x => Some x end
       end)).

(** gtp_games.py:268-280 [notify_move]. *)
Definition notify_move (c : colour) (m : gmove) (s : gbackend) : gbackend * res status :=
  match format_vertex m with
  | Err e => (s, Err e)
  | Ok vertex =>
      match send_command (gb_gc s) c (str "play") [colour_letter (opponent_of c); vertex] with
      | (g1, CRet _) => (with_gc g1 s, Ok SAccept)
      | (g1, CBad msg gtp) =>
          (with_gc g1 s,
           Ok (if match gtp with Some (_, _, text) => bytes_eqb text (str "illegal move") | None => false end
               then SReject (g_code c (gb_gc s) ++ str " claims move " ++ vertex ++ str " is illegal")
               else SError msg))
      | (g1, r) => (with_gc g1 s, do _ <- to_res r; Ok SBad)
      end
  end.

(** *** Scoring *)

(** gtp_games.py:286-307: what one player's (upper-cased) response adds to the lists of winners
    and margins; [None] if nothing. *)
Definition read_score (final_score : bytes) : option (option colour * option pfloat) :=
  let s := map upper_char final_score in
  if bytes_eqb s (str "0") then Some (None, Some (FNum (0, O)))
  else
    let margin (rest : bytes) :=
      match float_of rest with
      | None => None
      | Some f => if not_positive f then None else Some f
      end in
    match s with
    | b :: p :: rest =>
        if ceqb p "+"%char then
          if ceqb b "B"%char then Some (Some Black, margin rest)
          else if ceqb b "W"%char then Some (Some White, margin rest)
          else None
        else None
    | _ => None
    end.

(** [len(set(l)) == 1]. *)
Definition winner_eqb (a b : option colour) : bool := cell_eqb a b.
Definition margin_eqb (a b : option pfloat) : bool :=
  match a, b with
  | None, None => true
  | Some x, Some y => pfloat_eqb x y
  | _, _ => false
  end.
Definition one_value {A} (eqb : A -> A -> bool) (l : list A) : option A :=
  match l with
  | [] => None
  | x :: rest => if forallb (eqb x) rest then Some x else None
  end.

(** A Gtp_game_score whose margin may also be infinite or not a number. *)
Record gtp_score : Type := mkGScore {
  gts_winner : option colour;
  gts_margin : option pfloat;
  gts_disagreed : bool
}.

(** gtp_games.py:308-320: combining the lists. *)
Definition combine_scores (l : list (option colour * option pfloat)) : gtp_score :=
  match one_value winner_eqb (map fst l) with
  | Some w =>
      mkGScore w (match one_value margin_eqb (map snd l) with Some m => m | None => None end) false
  | None => mkGScore None None (match l with [] => false | _ => true end)
  end.

(** gtp_games.py:284-290: asking the scorers; their responses. *)
Fixpoint ask_scores (g : gctl) (scorers : list colour) : gctl * cres (list (colour * bytes)) :=
  match scorers with
  | [] => (g, CRet [])
  | c :: rest =>
      match maybe_send_command g c (str "final_score") [] with
      | (g1, CRet r) =>
          match ask_scores g1 rest with
          | (g2, CRet l) => (g2, CRet (match r with Some text => (c, text) :: l | None => l end))
          | x => x
          end
      | (g1, CBad m x) => (g1, CBad m x)
      | (g1, CChan k m) => (g1, CChan k m)
      | (g1, CExn e) => (g1, CExn e)
      end
  end.

Fixpoint keep_some {A} (l : list (option A)) : list A :=
  match l with [] => [] | Some x :: r => x :: keep_some r | None :: r => keep_some r end.

(** gtp_games.py:282-325 [_score_game_gtp]: the score and the raw scores. *)
Definition score_game_gtp (g : gctl) (scorers : list colour)
  : gctl * cres (gtp_score * list (colour * bytes)) :=
  match ask_scores g scorers with
  | (g1, CRet raw) => (g1, CRet (combine_scores (keep_some (map (fun x => read_score (snd x)) raw)), raw))
  | (g1, CBad m x) => (g1, CBad m x)
  | (g1, CChan k m) => (g1, CChan k m)
  | (g1, CExn e) => (g1, CExn e)
  end.

(** gtp_games.py:327-333 [score_game].  Simplification: for a margin that is infinite or not a
    number, the exception that Game_runner would raise when it formats the margin (utils.py:24)
    is raised here. *)
Definition score_game (pick : nat -> nat) (b : board) (s : gbackend) : gbackend * res game_score :=
  if gb_internal s then
    (s, score_from_position pick b (gb_komi s) (Some (gb_comp s)) (match gb_handicap s with Some h => h | None => 0 end))
  else
    match score_game_gtp (gb_gc s) (gb_scorers s) with
    | (g1, CRet (sc, raw)) =>
        (with_raw raw (with_gc g1 s),
         match gts_margin sc with
         | None => do x <- new_game_score (gts_winner sc) None;
                   Ok (mkScore (gs_winner x) (gs_margin x) (gts_disagreed sc))
         | Some (FNum m) => do x <- new_game_score (gts_winner sc) (Some m);
                            Ok (mkScore (gs_winner x) (gs_margin x) (gts_disagreed sc))
         | Some (FInf _) => Err OverflowError
         | Some FNan => Err ValueError
         end)
    | (g1, r) => (with_gc g1 s, do _ <- to_res r; Err AssertionError)
    end.

(** gtp_games.py:170-333: _Gtp_backend as a Backend for Game_runner. *)
Definition gtp_backend (pick : nat -> nat) (after : option (colour -> gmove -> board -> gbackend -> gbackend * res unit))
  : backend gbackend :=
  mkBackend gbackend start_new_game end_game get_free_handicap notify_free_handicap notify_fixed_handicap
            get_move notify_move (score_game pick) get_last_move_comment after.

(** ** Gtp_game *)

(** gtp_games.py:8-112 Game_result (in addition to the plain result). *)
Record game_result : Type := mkGR {
  gr_base : result;
  gr_player_b : bytes;
  gr_player_w : bytes;
  gr_id : option bytes;
  gr_cpu_b : option pfloat;
  gr_cpu_w : option pfloat
}.

Definition gr_player (c : colour) (r : game_result) : bytes :=
  match c with Black => gr_player_b r | White => gr_player_w r end.
Definition gr_winner (r : game_result) : option bytes :=
  match r_winner (gr_base r) with None => None | Some c => Some (gr_player c r) end.
(** gtp_games.py:48-52. *)
Definition gr_loser (r : game_result) : option bytes :=
  match r_winner (gr_base r) with None => None | Some c => Some (gr_player (opponent_of c) r) end.

(** gtp_games.py:33-46 [set_players]. *)
Definition set_players (r : result) (code_b code_w : bytes) : game_result :=
  let code (c : colour) := match c with Black => code_b | White => code_w end in
  let detail :=
    if r_forfeit r then
      Some (str "forfeit by " ++ match r_winner r with Some c => code (opponent_of c) | None => str "None" end
            ++ str ": " ++ match r_detail r with Some d => d | None => str "None" end)
    else r_detail r in
  mkGR (mkResult (r_winner r) (r_jigo r) (r_forfeit r) (r_sgf r) detail) code_b code_w None None None.

(** gtp_games.py:85-96 [soft_update_cpu_times]; [None] for a colour that is not in the dict. *)
Definition soft_update_cpu_times (b w : option (option pfloat)) (r : game_result) : game_result :=
  let upd (old : option pfloat) (new : option (option pfloat)) :=
    match old, new with None, Some x => x | _, _ => old end in
  mkGR (gr_base r) (gr_player_b r) (gr_player_w r) (gr_id r) (upd (gr_cpu_b r) b) (upd (gr_cpu_w r) w).

(** gtp_games.py:98-110 [describe]. *)
Definition describe (r : game_result) : bytes :=
  (match gr_winner r, gr_loser r with
   | Some w, Some l => w ++ str " beat " ++ l ++ str " "
   | _, _ => gr_player_b r ++ str " vs " ++ gr_player_w r ++ str " "
   end) ++
  (if r_jigo (gr_base r) then str "jigo" else r_sgf (gr_base r)) ++
  match r_detail (gr_base r) with None => [] | Some d => str " (" ++ d ++ str ")" end.

(** gtp_games.py:383-393: the attributes of Gtp_game. *)
Record gtp_game : Type := mkGame {
  ga_runner : runner;
  ga_backend : gbackend;
  ga_id : option bytes;
  ga_result : option game_result;
  ga_cpu_errors : option (bool * bool)       (* cpu_time_errors: black, white *)
}.

(** gtp_games.py:485-512 [run].  If it returns, [result] and [cpu_time_errors] are set. *)
Definition run_gtp_game (pick : nat -> nat) (after : option (colour -> gmove -> board -> gbackend -> gbackend * res unit))
  (fuel : nat) (g : gtp_game) : gtp_game * res unit :=
  match run (gtp_backend pick after) fuel pick (ga_runner g) (ga_backend g) with
  | (r1, s1, Err e) => (mkGame r1 s1 (ga_id g) (ga_result g) (ga_cpu_errors g), Err e)
  | (r1, s1, Ok _) =>
      match ru_result r1 with
      | None => (mkGame r1 s1 (ga_id g) (ga_result g) (ga_cpu_errors g), Err AttributeError)
      | Some res =>
          let gr0 := set_players res (g_code_b (gb_gc s1)) (g_code_w (gb_gc s1)) in
          let gr := mkGR (gr_base gr0) (gr_player_b gr0) (gr_player_w gr0) (ga_id g) None None in
          match get_gtp_cpu_times (gb_gc s1) with
          | (gc2, CRet ((tb, eb), (tw, ew))) =>
              let some (t : option pfloat) := match t with None => None | Some x => Some (Some x) end in
              (mkGame r1 (with_gc gc2 s1) (ga_id g)
                      (Some (soft_update_cpu_times (some tb) (some tw) gr)) (Some (eb, ew)), Ok tt)
          | (gc2, r) =>
              (mkGame r1 (with_gc gc2 s1) (ga_id g) (Some gr) (ga_cpu_errors g), do _ <- to_res r; Ok tt)
          end
      end
  end.

End Games.
Arguments gctl X : clear implicits.
Arguments gbackend X : clear implicits.
Arguments gtp_game X : clear implicits.
