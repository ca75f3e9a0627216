(** What a game of Go between two players is (C31 - C33), apart from the code. *)
From Coq Require Import QArith.
From Verif Require Import Base Bytes BoardModel BoardSpec CommonModel GameplayModel.
Open Scope Z_scope.

(** ** The rules of a game *)

(** The state of a game in progress: the moves so far, the position, the point the simple ko
    rule forbids to the player to move, and the player to move. *)
Record situation : Type := mkSit {
  s_moves : list (colour * gmove);
  s_pos : position;
  s_ko : option point;
  s_turn : colour
}.

Definition start (pos : position) (first : colour) : situation := mkSit [] pos None first.

(** A point a player may play on. *)
Definition playable (s : Z) (x : situation) (p : point) : Prop :=
  on_board s p /\ s_pos x p = None /\ s_ko x <> Some p.

(** One legal move or pass (self-capture allowed, no superko). *)
Inductive legal_step (s : Z) (x : situation) : gmove -> situation -> Prop :=
| ls_pass : legal_step s x None
    (mkSit (s_moves x ++ [(s_turn x, None)]) (s_pos x) None (opponent_of (s_turn x)))
| ls_move p pos' ko' :
    playable s x p ->
    go_move s (s_pos x) p (s_turn x) pos' ->
    (forall k, ko' = Some k <-> simple_ko s (s_pos x) p (s_turn x) pos' k) ->
    legal_step s x (Some p)
      (mkSit (s_moves x ++ [(s_turn x, Some p)]) pos' ko' (opponent_of (s_turn x))).

Inductive legal_game (s : Z) (x : situation) : situation -> Prop :=
| lg_start : legal_game s x x
| lg_step y m z : legal_game s x y -> legal_step s y m z -> legal_game s x z.

Definition is_pass (cm : colour * gmove) : bool := match snd cm with None => true | Some _ => false end.

(** Two consecutive passes have just been made. *)
Definition two_passes (l : list (colour * gmove)) : Prop :=
  exists l' c d, l = l' ++ [(c, None); (d, None)].

(** The players take turns, [c] first. *)
Fixpoint alternates (c : colour) (l : list (colour * gmove)) : Prop :=
  match l with [] => True | (d, _) :: r => d = c /\ alternates (opponent_of c) r end.

(** The reasons why a game can end. *)
Inductive ending : Type :=
| PassedOut
| MoveLimit
| Resigned (loser : colour)
| Claimed (winner : colour)
| Forfeited (loser : colour) (reason : bytes).

Definition ending_winner (e : ending) : option colour :=
  match e with
  | PassedOut | MoveLimit => None
  | Resigned c => Some (opponent_of c)
  | Claimed c => Some c
  | Forfeited c _ => Some (opponent_of c)
  end.

(** The public attributes of a Game that is over for the reason [e]. *)
Definition reports (g : ggame) (e : ending) : Prop :=
  gm_over g = true /\
  gm_passed_out g = (match e with PassedOut => true | _ => false end) /\
  gm_hit_limit g = (match e with MoveLimit => true | _ => false end) /\
  gm_resigned g = (match e with Resigned _ => true | _ => false end) /\
  gm_claimed g = (match e with Claimed _ => true | _ => false end) /\
  gm_forfeited g = (match e with Forfeited _ _ => true | _ => false end) /\
  gm_winner g = ending_winner e /\
  gm_reason g = (match e with Forfeited _ r => Some r | _ => None end).

Definition in_progress (g : ggame) : Prop :=
  gm_over g = false /\ gm_passed_out g = false /\ gm_hit_limit g = false /\ gm_resigned g = false /\
  gm_claimed g = false /\ gm_forfeited g = false /\ gm_winner g = None /\ gm_reason g = None.

(** The move limit stops a game once that many moves have been made. *)
Definition limit_reached (limit : option Z) (l : list (colour * gmove)) : Prop :=
  exists n, limit = Some n /\ n <= Z.of_nat (List.length l).

(** How a game stands after a legal move: over or not. *)
Inductive after_step (limit : option Z) (passed_out : bool) (l : list (colour * gmove)) : option ending -> Prop :=
| as_passed_out : passed_out = true -> after_step limit passed_out l (Some PassedOut)
| as_limit : passed_out = false -> limit_reached limit l -> after_step limit passed_out l (Some MoveLimit)
| as_continue : passed_out = false -> ~ limit_reached limit l -> after_step limit passed_out l None.

(** ** Game objects: what each call does *)

(** The state of a Game as its user sees it: the situation, how many passes were just made
    (an attempt to play off the board counts as an interruption), and the reason it ended. *)
Record gstate : Type := mkGS { gs_sit : situation; gs_streak : nat; gs_end : option ending }.

Definition ko_reason : bytes := str "attempted move to ko-forbidden point ".
Definition occupied_reason : bytes := str "attempted move to occupied point ".

(** [game_step s limit x call y out]: from [x] the call leads to [y] and returns normally
    ([None]) or raises. *)
Inductive game_step (s : Z) (limit : option Z) (x : gstate) : game_call -> gstate -> option exn -> Prop :=
| gs_over o : gs_end x <> None -> game_step s limit x o x (Some GameStateError)
| gs_wrong_colour c m : gs_end x = None -> c <> s_turn (gs_sit x) ->
    game_step s limit x (CMove c m) x (Some GameStateError)
| gs_resign c : gs_end x = None ->
    game_step s limit x (CResign c) (mkGS (gs_sit x) (gs_streak x) (Some (Resigned c))) None
| gs_claim c : gs_end x = None ->
    game_step s limit x (CClaim c) (mkGS (gs_sit x) (gs_streak x) (Some (Claimed c))) None
| gs_forfeit c why : gs_end x = None ->
    game_step s limit x (CForfeit c why) (mkGS (gs_sit x) (gs_streak x) (Some (Forfeited c why))) None
| gs_pass y e : gs_end x = None ->
    legal_step s (gs_sit x) None y ->
    after_step limit (Nat.eqb (gs_streak x) 1) (s_moves y) e ->
    game_step s limit x (CMove (s_turn (gs_sit x)) None) (mkGS y (S (gs_streak x)) e) None
| gs_move p y e : gs_end x = None ->
    legal_step s (gs_sit x) (Some p) y ->
    after_step limit false (s_moves y) e ->
    game_step s limit x (CMove (s_turn (gs_sit x)) (Some p)) (mkGS y 0 e) None
| gs_ko p v : gs_end x = None ->
    s_ko (gs_sit x) = Some p -> format_vertex (Some p) = Ok v ->
    game_step s limit x (CMove (s_turn (gs_sit x)) (Some p))
      (mkGS (gs_sit x) 0 (Some (Forfeited (s_turn (gs_sit x)) (ko_reason ++ v)))) None
| gs_occupied p v : gs_end x = None ->
    on_board s p -> s_pos (gs_sit x) p <> None -> s_ko (gs_sit x) <> Some p -> format_vertex (Some p) = Ok v ->
    game_step s limit x (CMove (s_turn (gs_sit x)) (Some p))
      (mkGS (gs_sit x) 0 (Some (Forfeited (s_turn (gs_sit x)) (occupied_reason ++ v)))) None
| gs_off_board p : gs_end x = None -> ~ on_board s p -> s_ko (gs_sit x) <> Some p ->
    game_step s limit x (CMove (s_turn (gs_sit x)) (Some p)) (mkGS (gs_sit x) 0 None) (Some IndexError).

Inductive game_history (s : Z) (limit : option Z) (x : gstate) : list (game_call * option exn) -> gstate -> Prop :=
| gh_nil : game_history s limit x [] x
| gh_step h y o out z : game_history s limit x h y -> game_step s limit y o z out ->
    game_history s limit x (h ++ [(o, out)]) z.

(** A Game object shows the state [x]. *)
Definition shows (s : Z) (limit : option Z) (g : ggame) (x : gstate) : Prop :=
  reachable s (gm_board g) /\ view (gm_board g) = s_pos (gs_sit x) /\
  gm_limit g = limit /\
  gm_moves g = Z.of_nat (List.length (s_moves (gs_sit x))) /\
  gm_passes g = Z.of_nat (gs_streak x) /\
  match gs_end x with
  | None => in_progress g /\ gm_next g = Some (s_turn (gs_sit x)) /\ gm_ko g = s_ko (gs_sit x)
  | Some e => reports g e /\ gm_next g = None
  end.

(** ** Scores *)

Definition value (x : num) : Q := inject_Z (fst x) / inject_Z (10 ^ Z.of_nat (snd x)).

(** Points deducted from Black's score for a handicap. *)
Definition deduction (comp : compensation) (handicap : Z) : Z :=
  if handicap =? 0 then 0
  else match comp with CompNo => 0 | CompShort => handicap - 1 | CompFull => handicap end.

(** The winner and margin for a score (black minus white). *)
Definition decides (score : Q) (winner : option colour) (margin : Q) : Prop :=
  ((score > 0)%Q /\ winner = Some Black /\ (margin == score)%Q) \/
  ((score < 0)%Q /\ winner = Some White /\ (margin == - score)%Q) \/
  ((score == 0)%Q /\ winner = None /\ (margin == 0)%Q).

(** ** Running a game with an arbitrary backend *)

(** The calls a Game_runner makes, with the responses. *)
Inductive event : Type :=
| EGetMove (c : colour) (r : res action)
| EEnd (r : res unit)
| EComment (c : colour) (r : res (option bytes))
| ENotify (c : colour) (m : gmove) (r : res status)
| EAfter (c : colour) (m : gmove) (b : board) (r : res unit)
| EScore (b : board) (r : res game_score)
| EStart (size : Z) (komi : num) (r : res unit)
| EFree (n : Z) (r : res (list point))
| ENotifyFree (pts : list point) (r : res unit)
| ENotifyFixed (c : colour) (n : Z) (pts : list point) (r : res unit).

(** Any backend, with a record of the calls made. *)
Definition log1 {S A} (f : S -> S * res A) (ev : res A -> event) (x : S * list event)
  : (S * list event) * res A :=
  let (s', r) := f (fst x) in ((s', snd x ++ [ev r]), r).

Definition logged {S} (B : backend S) : backend (S * list event) :=
  mkBackend _
    (fun n k => log1 (b_start B n k) (EStart n k))
    (log1 (b_end B) EEnd)
    (fun n => log1 (b_free B n) (EFree n))
    (fun pts => log1 (b_notify_free B pts) (ENotifyFree pts))
    (fun c n pts => log1 (b_notify_fixed B c n pts) (ENotifyFixed c n pts))
    (fun c => log1 (b_get_move B c) (EGetMove c))
    (fun c m => log1 (b_notify B c m) (ENotify c m))
    (fun b => log1 (b_score B b) (EScore b))
    (fun c => log1 (b_comment B c) (EComment c))
    (match b_after B with
     | None => None
     | Some f => Some (fun c m b => log1 (f c m b) (EAfter c m b))
     end).

(** The state of a run: the situation, and the moves with their comments. *)
Record run_state : Type := mkRS { rs_sit : situation; rs_record : list (colour * gmove * option bytes) }.

Definition runs_two_passes (x : situation) (m : gmove) : bool :=
  match m with
  | Some _ => false
  | None => match rev (s_moves x) with (_, None) :: _ => true | _ => false end
  end.

(** What the after-move callback (if any) sees: the move, and the position after it. *)
Definition callback_events (s : Z) (has_callback : bool) (c : colour) (m : gmove) (pos : position) (evs : list event) : Prop :=
  if has_callback then exists b, evs = [EAfter c m b (Ok tt)] /\ same_on s (view b) pos
  else evs = [].

(** A move that is accepted by the opponent and does not end the game. *)
Inductive quiet_round (s : Z) (limit : option Z) (cb : bool) (x : run_state) : list event -> run_state -> Prop :=
| qr_move m y cm after :
    legal_step s (rs_sit x) m y ->
    after_step limit (runs_two_passes (rs_sit x) m) (s_moves y) None ->
    callback_events s cb (s_turn (rs_sit x)) m (s_pos y) after ->
    quiet_round s limit cb x
      ([EGetMove (s_turn (rs_sit x)) (Ok (AMove m)); EComment (s_turn (rs_sit x)) (Ok cm);
        ENotify (opponent_of (s_turn (rs_sit x))) m (Ok SAccept)] ++ after)
      (mkRS y (rs_record x ++ [(s_turn (rs_sit x), m, cm)])).

(** The last round of a game.  The comment is shown as the final message only when the game
    ends without an accepted move. *)
Inductive last_round (s : Z) (limit : option Z) (cb : bool) (x : run_state)
  : list event -> run_state -> ending -> option (colour * bytes) -> Prop :=
| lr_resign cm :
    last_round s limit cb x
      [EGetMove (s_turn (rs_sit x)) (Ok AResign); EEnd (Ok tt); EComment (s_turn (rs_sit x)) (Ok cm)]
      x (Resigned (s_turn (rs_sit x))) (option_map (pair (s_turn (rs_sit x))) cm)
| lr_claim cm :
    last_round s limit cb x
      [EGetMove (s_turn (rs_sit x)) (Ok AClaim); EEnd (Ok tt); EComment (s_turn (rs_sit x)) (Ok cm)]
      x (Claimed (s_turn (rs_sit x))) (option_map (pair (s_turn (rs_sit x))) cm)
| lr_forfeit why cm :
    last_round s limit cb x
      [EGetMove (s_turn (rs_sit x)) (Ok (AForfeit why)); EEnd (Ok tt); EComment (s_turn (rs_sit x)) (Ok cm)]
      x (Forfeited (s_turn (rs_sit x)) why) (option_map (pair (s_turn (rs_sit x))) cm)
| lr_illegal p v reason cm :
    (* the mover loses *)
    on_board s p -> format_vertex (Some p) = Ok v ->
    (s_ko (rs_sit x) = Some p /\ reason = ko_reason ++ v \/
     s_pos (rs_sit x) p <> None /\ reason = occupied_reason ++ v) ->
    last_round s limit cb x
      [EGetMove (s_turn (rs_sit x)) (Ok (AMove (Some p))); EEnd (Ok tt); EComment (s_turn (rs_sit x)) (Ok cm)]
      x (Forfeited (s_turn (rs_sit x)) reason) (option_map (pair (s_turn (rs_sit x))) cm)
| lr_rejected m y cm msg :
    (* the opponent calls the move illegal: the mover loses, and the move is not recorded *)
    legal_step s (rs_sit x) m y ->
    after_step limit (runs_two_passes (rs_sit x) m) (s_moves y) None ->
    last_round s limit cb x
      [EGetMove (s_turn (rs_sit x)) (Ok (AMove m)); EComment (s_turn (rs_sit x)) (Ok cm);
       ENotify (opponent_of (s_turn (rs_sit x))) m (Ok (SReject msg)); EEnd (Ok tt)]
      x (Forfeited (s_turn (rs_sit x)) msg) (option_map (pair (s_turn (rs_sit x))) cm)
| lr_error m y cm msg :
    (* the opponent fails: the opponent loses *)
    legal_step s (rs_sit x) m y ->
    after_step limit (runs_two_passes (rs_sit x) m) (s_moves y) None ->
    last_round s limit cb x
      [EGetMove (s_turn (rs_sit x)) (Ok (AMove m)); EComment (s_turn (rs_sit x)) (Ok cm);
       ENotify (opponent_of (s_turn (rs_sit x))) m (Ok (SError msg)); EEnd (Ok tt)]
      x (Forfeited (opponent_of (s_turn (rs_sit x))) msg) (option_map (pair (s_turn (rs_sit x))) cm)
| lr_final_move m y cm st e after :
    (* the second pass, or the move that reaches the limit; the opponent's opinion of it is
       ignored *)
    legal_step s (rs_sit x) m y ->
    after_step limit (runs_two_passes (rs_sit x) m) (s_moves y) (Some e) ->
    st <> SBad ->
    callback_events s cb (s_turn (rs_sit x)) m (s_pos y) after ->
    last_round s limit cb x
      ([EGetMove (s_turn (rs_sit x)) (Ok (AMove m)); EEnd (Ok tt); EComment (s_turn (rs_sit x)) (Ok cm);
        ENotify (opponent_of (s_turn (rs_sit x))) m (Ok st)] ++ after)
      (mkRS y (rs_record x ++ [(s_turn (rs_sit x), m, cm)])) e None.

Inductive quiet_rounds (s : Z) (limit : option Z) (cb : bool) (x : run_state) : list event -> run_state -> Prop :=
| qrs_nil : quiet_rounds s limit cb x [] x
| qrs_step evs y evs' z : quiet_rounds s limit cb x evs y -> quiet_round s limit cb y evs' z ->
    quiet_rounds s limit cb x (evs ++ evs') z.

(** Scoring, after a game that was passed out: the backend is shown the final position. *)
Definition scoring (s : Z) (e : ending) (pos : position) (evs : list event) (sc : option game_score) : Prop :=
  match e with
  | PassedOut => exists b g, evs = [EScore b (Ok g)] /\ same_on s (view b) pos /\ sc = Some g
  | _ => evs = [] /\ sc = None
  end.

(** A complete game, from the first call to the last. *)
Definition complete_game (s : Z) (limit : option Z) (cb : bool) (x : run_state) (evs : list event) (y : run_state)
  (e : ending) (final : option (colour * bytes)) (sc : option game_score) : Prop :=
  exists evs1 z evs2 evs3,
    evs = evs1 ++ evs2 ++ evs3 /\
    quiet_rounds s limit cb x evs1 z /\
    last_round s limit cb z evs2 y e final /\
    scoring s e (s_pos (rs_sit y)) evs3 sc.

(** ** When something raises an exception *)

(** Why a run stopped with the exception [e]: the last call made raised it, or its response
    made no sense. *)
Definition broke_off (s : Z) (evs : list event) (e : exn) : Prop :=
  exists before ev, evs = before ++ [ev] /\
    match ev with
    | EGetMove _ (Err x) | EEnd (Err x) | EComment _ (Err x) | ENotify _ _ (Err x) | EAfter _ _ _ (Err x)
    | EScore _ (Err x) => e = x
    | EGetMove _ (Ok ABad) | ENotify _ _ (Ok SBad) => e = ValueError
    | EGetMove _ (Ok (AMove (Some p))) => ~ on_board s p /\ e = IndexError
    | EScore _ (Ok g) => new_game_score (gs_winner g) (gs_margin g) = Err ValueError /\ e = ValueError
    | _ => False
    end.

(** A run that stopped early: some complete rounds, then part of a round (in which one more
    move may have been completed). *)
Definition interrupted_game (s : Z) (limit : option Z) (cb : bool) (x : run_state) (evs : list event)
  (y : run_state) : Prop :=
  exists evs1 z evs2, evs = evs1 ++ evs2 /\ quiet_rounds s limit cb x evs1 z /\
    (y = z \/
     exists m cm sit, legal_step s (rs_sit z) m sit /\ y = mkRS sit (rs_record z ++ [(s_turn (rs_sit z), m, cm)])).

(** The result that goes with an ending, and with the score the backend gave. *)
Definition colour_name (c : colour) : bytes := match c with Black => str "B" | White => str "W" end.

Definition unscored_result (e : ending) (r : result) : Prop :=
  r_winner r = ending_winner e /\ r_jigo r = false /\
  match e with
  | PassedOut => False
  | MoveLimit => r_sgf r = str "Void" /\ r_detail r = Some (str "hit move limit") /\ r_forfeit r = false
  | Resigned c => r_sgf r = colour_name (opponent_of c) ++ str "+R" /\ r_detail r = None /\ r_forfeit r = false
  | Claimed c => r_sgf r = colour_name c ++ str "+" /\ r_detail r = Some (str "claim") /\ r_forfeit r = false
  | Forfeited c why =>
      r_sgf r = colour_name (opponent_of c) ++ str "+F" /\ r_detail r = Some why /\ r_forfeit r = true
  end.

(** Sensible combinations of winner and margin. *)
Definition sensible (winner : option colour) (margin : option num) : Prop :=
  match winner, margin with
  | None, None | Some _, None => True
  | None, Some m => (value m == 0)%Q
  | Some _, Some m => (value m > 0)%Q
  end.

Definition scored_result (winner : option colour) (margin : option num) (r : result) : Prop :=
  r_winner r = winner /\ r_forfeit r = false /\
  r_jigo r = (match winner, margin with None, Some _ => true | _, _ => false end) /\
  r_sgf r = match winner, margin with
            | None, None => str "?"
            | None, Some _ => str "0"
            | Some c, None => colour_name c ++ str "+"
            | Some c, Some m => colour_name c ++ str "+" ++ format_float m
            end.

(** The position a game starts from: the handicap stones (a backend could even choose stones
    without liberties, which are removed). *)
Definition starting_position (s : Z) (stones : option (list point)) (pos : position) : Prop :=
  clears_all s (setup_position (fun _ => None) (match stones with Some l => l | None => [] end) [] []) pos.
Definition first_player (stones : option (list point)) : colour :=
  match stones with Some (_ :: _) => White | _ => Black end.

(** A runner that is ready to run a game with the given handicap stones. *)
Definition ready (r : runner) (size : Z) (limit : option Z) (stones : option (list point)) : Prop :=
  ru_size r = size /\ ru_limit r = limit /\ ru_stones r = stones /\ ru_moves r = [] /\ ru_final r = None /\
  ru_score r = None /\ ru_result r = None /\ (ru_state r = 1 \/ ru_state r = 2).

Definition moves_only (l : list (colour * gmove * option bytes)) : list (colour * gmove) := map fst l.

Definition is_end (ev : event) : bool := match ev with EEnd _ => true | _ => false end.

(** The record of moves [l] is that of a legal game from the position [pos], with the players
    taking turns, and not longer than the move limit. *)
Definition record_is_legal (s : Z) (limit : option Z) (pos : position) (first : colour)
  (l : list (colour * gmove * option bytes)) : Prop :=
  exists sit, legal_game s (start pos first) sit /\ moves_only l = s_moves sit /\
    alternates first (moves_only l) /\
    (forall n, limit = Some n -> Z.of_nat (List.length l) <= Z.max 1 n).
