(** Model of gomill/gameplay.py: Game, scores, results and Game_runner. *)
From Verif Require Import Base Bytes PyStr BoardModel CommonModel SgfPropsModel.

(** ** Numbers *)

(** A Python number used as komi or margin: the decimal [m / 10^k].  Simplification: the
    model computes exactly, where Python rounds to binary64 (the same for the integer and
    half-integer values that occur in Go games, and sums and differences of decimals that
    binary64 represents exactly). *)
Definition num : Type := (Z * nat)%type.
Definition num_int (n : Z) : num := (n, O).
Definition num_sub (a b : num) : num :=
  (fst a * 10 ^ Z.of_nat (snd b) - fst b * 10 ^ Z.of_nat (snd a), (snd a + snd b)%nat).
Definition num_neg (a : num) : num := (- fst a, snd a).

(** utils.py:15-27 [format_float]; [str(f)] is modelled as the plain decimal (Python uses
    at most 12 significant digits and an exponent for very small or large numbers). *)
Definition format_float (f : num) : bytes :=
  let (m, k) := normalise_dec (fst f) (snd f) in
  match k with
  | O => str_int m
  | _ => (if m <? 0 then str "-" else []) ++
         str_int (Z.abs m / 10 ^ Z.of_nat k) ++ str "." ++
         zfill k (str_int (Z.abs m mod 10 ^ Z.of_nat k))
  end.

(** ** Game *)

(** gameplay.py:20-76: the attributes of Game, except the callback, which is a parameter of
    the operations below. *)
Record ggame : Type := mkGG {
  gm_board : board;
  gm_limit : option Z;
  gm_next : option colour;
  gm_moves : Z;                 (* move_count *)
  gm_passes : Z;                (* pass_count *)
  gm_ko : option point;
  gm_over : bool;
  gm_passed_out : bool;
  gm_resigned : bool;
  gm_claimed : bool;
  gm_forfeited : bool;
  gm_hit_limit : bool;
  gm_winner : option colour;
  gm_reason : option bytes
}.

(** gameplay.py:58-76, 78-86: a new game with its move limit. *)
Definition new_ggame (b : board) (limit : option Z) (first : colour) : ggame :=
  mkGG b limit (Some first) 0 0 None false false false false false false None None.

Section Callback.
(** The environment of the program, which the game-over callback may change; the callback
    may look at the game, and may raise. *)
Context {E : Type}.
Variable callback : option (ggame -> E -> E * res unit).

Definition gout : Type := (ggame * E * res unit)%type.

(** gameplay.py:99-104 [_set_over]. *)
Definition set_over (g : ggame) (e : E) : gout :=
  let g' := mkGG (gm_board g) (gm_limit g) None (gm_moves g) (gm_passes g) None true
                 (gm_passed_out g) (gm_resigned g) (gm_claimed g) (gm_forfeited g) (gm_hit_limit g)
                 (gm_winner g) (gm_reason g) in
  match callback with
  | None => (g', e, Ok tt)
  | Some f => let (e', r) := f g' e in (g', e', r)
  end.

(** gameplay.py:106-116 [record_resignation_by]. *)
Definition record_resignation_by (g : ggame) (e : E) (loser : colour) : gout :=
  if gm_over g then (g, e, Err GameStateError)
  else set_over (mkGG (gm_board g) (gm_limit g) (gm_next g) (gm_moves g) (gm_passes g) (gm_ko g) (gm_over g)
                      (gm_passed_out g) true (gm_claimed g) (gm_forfeited g) (gm_hit_limit g)
                      (Some (opponent_of loser)) (gm_reason g)) e.

(** gameplay.py:118-128 [record_claim_by]. *)
Definition record_claim_by (g : ggame) (e : E) (winner : colour) : gout :=
  if gm_over g then (g, e, Err GameStateError)
  else set_over (mkGG (gm_board g) (gm_limit g) (gm_next g) (gm_moves g) (gm_passes g) (gm_ko g) (gm_over g)
                      (gm_passed_out g) (gm_resigned g) true (gm_forfeited g) (gm_hit_limit g)
                      (Some winner) (gm_reason g)) e.

(** gameplay.py:130-142 [record_forfeit_by]. *)
Definition record_forfeit_by (g : ggame) (e : E) (loser : colour) (reason : bytes) : gout :=
  if gm_over g then (g, e, Err GameStateError)
  else set_over (mkGG (gm_board g) (gm_limit g) (gm_next g) (gm_moves g) (gm_passes g) (gm_ko g) (gm_over g)
                      (gm_passed_out g) (gm_resigned g) (gm_claimed g) true (gm_hit_limit g)
                      (Some (opponent_of loser)) (Some reason)) e.

(** gameplay.py:187-196: the end of [record_move]. *)
Definition after_move (g : ggame) (e : E) (c : colour) : gout :=
  let g1 := mkGG (gm_board g) (gm_limit g) (Some (opponent_of c)) (gm_moves g + 1) (gm_passes g) (gm_ko g)
                 (gm_over g) (gm_passed_out g) (gm_resigned g) (gm_claimed g) (gm_forfeited g)
                 (gm_hit_limit g) (gm_winner g) (gm_reason g) in
  if gm_passes g1 =? 2 then
    set_over (mkGG (gm_board g1) (gm_limit g1) (gm_next g1) (gm_moves g1) (gm_passes g1) (gm_ko g1)
                   (gm_over g1) true (gm_resigned g1) (gm_claimed g1) (gm_forfeited g1)
                   (gm_hit_limit g1) (gm_winner g1) (gm_reason g1)) e
  else
    if match gm_limit g1 with None => false | Some l => l <=? gm_moves g1 end then
      set_over (mkGG (gm_board g1) (gm_limit g1) (gm_next g1) (gm_moves g1) (gm_passes g1) (gm_ko g1)
                     (gm_over g1) (gm_passed_out g1) (gm_resigned g1) (gm_claimed g1) (gm_forfeited g1)
                     true (gm_winner g1) (gm_reason g1)) e
    else (g1, e, Ok tt).

(** Change the board, pass count and ko point. *)
Definition with_position (g : ggame) (b : board) (passes : Z) (ko : option point) : ggame :=
  mkGG b (gm_limit g) (gm_next g) (gm_moves g) passes ko (gm_over g) (gm_passed_out g) (gm_resigned g)
       (gm_claimed g) (gm_forfeited g) (gm_hit_limit g) (gm_winner g) (gm_reason g).

(** [move == self.simple_ko_point]. *)
Definition opoint_eqb (a : point) (b : option point) : bool :=
  match b with None => false | Some q => point_eqb a q end.

(** gameplay.py:144-196 [record_move].  (Formatting the forfeit reason raises ValueError on
    boards larger than 25.) *)
Definition record_move (pick : nat -> nat) (g : ggame) (e : E) (c : colour) (m : gmove) : gout :=
  if gm_over g then (g, e, Err GameStateError)
  else if negb (match gm_next g with Some n => colour_eqb c n | None => false end)
  then (g, e, Err GameStateError)
  else
    match m with
    | Some (row, col) =>
        let g0 := with_position g (gm_board g) 0 (gm_ko g) in
        if opoint_eqb (row, col) (gm_ko g) then
          match format_vertex m with
          | Err x => (g0, e, Err x)
          | Ok v => record_forfeit_by g0 e c (str "attempted move to ko-forbidden point " ++ v)
          end
        else
          match play pick (gm_board g) row col c with
          | (b', Ok ko) => after_move (with_position g0 b' 0 ko) e c
          | (b', Err ValueError) =>
              let g1 := with_position g0 b' 0 (gm_ko g) in
              match format_vertex m with
              | Err x => (g1, e, Err x)
              | Ok v => record_forfeit_by g1 e c (str "attempted move to occupied point " ++ v)
              end
          | (b', Err x) => (with_position g0 b' 0 (gm_ko g), e, Err x)
          end
    | None => after_move (with_position g (gm_board g) (gm_passes g + 1) None) e c
    end.

(** Calls on a Game. *)
Inductive game_call : Type :=
| CMove (c : colour) (m : gmove)
| CResign (loser : colour)
| CClaim (winner : colour)
| CForfeit (loser : colour) (reason : bytes).

Definition call (pick : nat -> nat) (g : ggame) (e : E) (o : game_call) : gout :=
  match o with
  | CMove c m => record_move pick g e c m
  | CResign c => record_resignation_by g e c
  | CClaim c => record_claim_by g e c
  | CForfeit c r => record_forfeit_by g e c r
  end.

(** A history of calls: the game afterwards, the environment, and the result of each call. *)
Fixpoint run_calls (pick : nat -> nat) (g : ggame) (e : E) (os : list game_call) : ggame * E * list (res unit) :=
  match os with
  | [] => (g, e, [])
  | o :: rest =>
      match call pick g e o with
      | (g1, e1, r) =>
          match run_calls pick g1 e1 rest with
          | (g2, e2, rs) => (g2, e2, r :: rs)
          end
      end
  end.

End Callback.

(** ** Scores and results *)

Inductive compensation : Type := CompNo | CompShort | CompFull.

(** gameplay.py:199-235 [adjust_score].  [None] stands for an unknown
    handicap_compensation string. *)
Definition adjust_score (raw_score : Z) (komi : num) (comp : option compensation) (handicap : Z)
  : res (option colour * num) :=
  match comp with
  | None => Err ValueError
  | Some cp =>
      let score := num_sub (num_int raw_score) komi in
      let score :=
        if negb (handicap =? 0) then
          match cp with
          | CompFull => num_sub score (num_int handicap)
          | CompShort => num_sub score (num_int (handicap - 1))
          | CompNo => score
          end
        else score in
      Ok (if 0 <? fst score then (Some Black, score)
          else if fst score <? 0 then (Some White, num_neg score)
          else (None, num_int 0))
  end.

(** gameplay.py:238-264 Game_score; the last field is an attribute of its subclass
    Gtp_game_score (gtp_games.py:129-132), and false for a plain Game_score. *)
Record game_score : Type := mkScore {
  gs_winner : option colour;
  gs_margin : option num;
  gs_disagreed : bool            (* scorers_disagreed *)
}.

Definition new_game_score (winner : option colour) (margin : option num) : res game_score :=
  match winner with
  | None => match margin with
            | Some m => if fst m =? 0 then Ok (mkScore winner margin false) else Err ValueError
            | None => Ok (mkScore winner margin false)
            end
  | Some _ => match margin with
              | Some m => if fst m =? 0 then Err ValueError
                          else if fst m <? 0 then Err ValueError
                          else Ok (mkScore winner margin false)
              | None => Ok (mkScore winner margin false)
              end
  end.

(** gameplay.py:262-277 [get_detail], and gtp_games.py:134-138 which overrides it. *)
Definition score_detail (g : game_score) : option bytes :=
  if gs_disagreed g then Some (str "players disagreed") else
  match gs_margin g with
  | None => match gs_winner g with
            | None => Some (str "no score reported")
            | Some _ => Some (str "unknown margin")
            end
  | Some _ => None
  end.

(** gameplay.py:279-295 [from_position]. *)
Definition score_from_position (pick : nat -> nat) (b : board) (komi : num) (comp : option compensation)
  (handicap : Z) : res game_score :=
  do raw <- area_score pick b;
  do (w, m) <- adjust_score raw komi comp handicap;
  new_game_score w (Some m).

(** gameplay.py:298-340 Result. *)
Record result : Type := mkResult {
  r_winner : option colour;
  r_jigo : bool;
  r_forfeit : bool;
  r_sgf : bytes;
  r_detail : option bytes
}.
Definition r_loser (r : result) : option colour :=
  match r_winner r with None => None | Some c => Some (opponent_of c) end.
Definition r_unknown (r : result) : bool :=
  match r_winner r with None => negb (r_jigo r) | Some _ => false end.

(** gameplay.py:320-325 [_set_winning_colour]. *)
Definition winner_text (c : option colour) : bytes :=
  match c with None => str "?" | Some Black => str "B+" | Some White => str "W+" end.

(** gameplay.py:342-374 [from_score]. *)
Definition result_from_score (winner : option colour) (margin : option num) (detail : option bytes) : res result :=
  if match margin with Some m => fst m <? 0 | None => false end then Err ValueError
  else
    match winner with
    | None =>
        match margin with
        | Some m => if fst m =? 0 then Ok (mkResult None true false (str "0") detail) else Err ValueError
        | None => Ok (mkResult None false false (str "?") detail)
        end
    | Some c =>
        match margin with
        | Some m => if fst m =? 0 then Err ValueError
                    else Ok (mkResult winner false false (winner_text winner ++ format_float m) detail)
        | None => Ok (mkResult winner false false (winner_text winner) detail)
        end
    end.

(** gameplay.py:375-382 [from_game_score]. *)
Definition result_from_game_score (g : game_score) : res result :=
  result_from_score (gs_winner g) (gs_margin g) (score_detail g).

(** gameplay.py:386-411 [from_unscored_game]. *)
Definition result_from_unscored (g : ggame) : res result :=
  if negb (gm_over g) then Err ValueError
  else if gm_passed_out g then Err ValueError
  else if gm_hit_limit g then
    Ok (mkResult (gm_winner g) false false (str "Void") (Some (str "hit move limit")))
  else if gm_resigned g then
    Ok (mkResult (gm_winner g) false false (winner_text (gm_winner g) ++ str "R") None)
  else if gm_claimed g then
    Ok (mkResult (gm_winner g) false false (winner_text (gm_winner g)) (Some (str "claim")))
  else if gm_forfeited g then
    Ok (mkResult (gm_winner g) false true (winner_text (gm_winner g) ++ str "F") (gm_reason g))
  else Err AssertionError.

(** ** Game_runner *)

(** gameplay.py:424-550: what the Backend's methods can return; [ABad] and [SBad] stand for
    strings that are not in the documented list. *)
Inductive action : Type := AMove (m : gmove) | AForfeit (why : bytes) | AResign | AClaim | ABad.
Inductive status : Type := SAccept | SReject (msg : bytes) | SError (msg : bytes) | SBad.

(** A Backend: an arbitrary program with its own state [S], each of whose methods can change
    that state and return a value or raise. *)
Record backend (S : Type) : Type := mkBackend {
  b_start : Z -> num -> S -> S * res unit;
  b_end : S -> S * res unit;
  b_free : Z -> S -> S * res (list point);
  b_notify_free : list point -> S -> S * res unit;
  b_notify_fixed : colour -> Z -> list point -> S -> S * res unit;
  b_get_move : colour -> S -> S * res action;
  b_notify : colour -> gmove -> S -> S * res status;
  b_score : board -> S -> S * res game_score;
  b_comment : colour -> S -> S * res (option bytes);
  (** the after-move callback, part of the environment in the same way *)
  b_after : option (colour -> gmove -> board -> S -> S * res unit)
}.
Arguments b_start {S}. Arguments b_end {S}. Arguments b_free {S}. Arguments b_notify_free {S}.
Arguments b_notify_fixed {S}. Arguments b_get_move {S}. Arguments b_notify {S}. Arguments b_score {S}.
Arguments b_comment {S}. Arguments b_after {S}.

(** gameplay.py:586-599: the attributes of Game_runner. *)
Record runner : Type := mkRunner {
  ru_size : Z;
  ru_komi : num;
  ru_limit : option Z;
  ru_handicap : option Z;                      (* additional_sgf_props: the HA value *)
  ru_stones : option (list point);             (* handicap_stones *)
  ru_moves : list (colour * gmove * option bytes);
  ru_final : option (colour * bytes);          (* final_diagnostics *)
  ru_score : option game_score;
  ru_result : option result;
  ru_state : Z
}.

Definition new_runner (size : Z) (komi : num) (limit : option Z) : runner :=
  mkRunner size komi limit None None [] None None None 0.

Definition with_state (n : Z) (r : runner) : runner :=
  mkRunner (ru_size r) (ru_komi r) (ru_limit r) (ru_handicap r) (ru_stones r) (ru_moves r) (ru_final r)
           (ru_score r) (ru_result r) n.
Definition with_handicap (h : Z) (pts : list point) (r : runner) : runner :=
  mkRunner (ru_size r) (ru_komi r) (ru_limit r) (Some h) (Some pts) (ru_moves r) (ru_final r)
           (ru_score r) (ru_result r) (ru_state r).
Definition add_move (x : colour * gmove * option bytes) (r : runner) : runner :=
  mkRunner (ru_size r) (ru_komi r) (ru_limit r) (ru_handicap r) (ru_stones r) (ru_moves r ++ [x]) (ru_final r)
           (ru_score r) (ru_result r) (ru_state r).
Definition with_score (g : game_score) (r : runner) : runner :=
  mkRunner (ru_size r) (ru_komi r) (ru_limit r) (ru_handicap r) (ru_stones r) (ru_moves r) (ru_final r)
           (Some g) (ru_result r) (ru_state r).
Definition with_result (x : result) (r : runner) : runner :=
  mkRunner (ru_size r) (ru_komi r) (ru_limit r) (ru_handicap r) (ru_stones r) (ru_moves r) (ru_final r)
           (ru_score r) (Some x) (ru_state r).
(** gameplay.py:680-682 [_set_final_diagnostics]. *)
Definition set_final (c : colour) (comment : option bytes) (r : runner) : runner :=
  match comment with
  | None => r
  | Some msg =>
      mkRunner (ru_size r) (ru_komi r) (ru_limit r) (ru_handicap r) (ru_stones r) (ru_moves r) (Some (c, msg))
               (ru_score r) (ru_result r) (ru_state r)
  end.

Section Runner.
Context {S : Type}.
Variable B : backend S.

Definition rout : Type := (runner * S * res unit)%type.

(** gameplay.py:636-645 [prepare]. *)
Definition prepare (r : runner) (s : S) : rout :=
  if negb (ru_state r =? 0) then (r, s, Err GameRunnerStateError)
  else
    match b_start B (ru_size r) (ru_komi r) s with
    | (s1, Ok _) => (with_state 1 r, s1, Ok tt)
    | (s1, Err e) => (r, s1, Err e)
    end.

(** gameplay.py:647-683 [set_handicap]. *)
Definition set_handicap (r : runner) (s : S) (handicap : Z) (is_free : bool) : rout :=
  if negb (ru_state r =? 1) then (r, s, Err GameRunnerStateError)
  else if is_free then
    if negb ((2 <=? handicap) && (handicap <=? max_free_handicap (ru_size r))) then (r, s, Err ValueError)
    else
      let r2 := with_state 2 r in
      match b_free B handicap s with
      | (s1, Err e) => (r2, s1, Err e)
      | (s1, Ok pts) =>
          match b_notify_free B pts s1 with
          | (s2, Err e) => (r2, s2, Err e)
          | (s2, Ok _) => (with_handicap handicap pts r2, s2, Ok tt)
          end
      end
  else
    match handicap_points handicap (ru_size r) with
    | Err e => (r, s, Err e)
    | Ok pts =>
        let r2 := with_state 2 r in
        match b_notify_fixed B Black handicap pts s with
        | (s1, Err e) => (r2, s1, Err e)
        | (s1, Ok _) =>
            match b_notify_fixed B White handicap pts s1 with
            | (s2, Err e) => (r2, s2, Err e)
            | (s2, Ok _) => (with_handicap handicap pts r2, s2, Ok tt)
            end
        end
    end.

(** gameplay.py:684-694 [_make_game]. *)
Definition make_game (pick : nat -> nat) (r : runner) : res ggame :=
  do b <- new_board (ru_size r);
  match ru_stones r with
  | Some (p :: pts) =>
      match apply_setup pick b (p :: pts) [] [] with
      | (b', Ok _) => Ok (new_ggame b' (ru_limit r) White)
      | (_, Err e) => Err e
      end
  | _ => Ok (new_ggame b (ru_limit r) Black)
  end.

Definition over_callback : option (ggame -> S -> S * res unit) := Some (fun _ => b_end B).

(** gameplay.py:703-717: the game has just ended without a move. *)
Definition ended_without_move (r : runner) (c : colour) (o : ggame * S * res unit)
  : runner * ggame * S * res unit :=
  match o with
  | (g, s, Err e) => (r, g, s, Err e)
  | (g, s, Ok _) =>
      match b_comment B c s with
      | (s1, Err e) => (r, g, s1, Err e)
      | (s1, Ok cm) => (set_final c cm r, g, s1, Ok tt)
      end
  end.

(** gameplay.py:696-743 [_do_move], for the player [c] to move. *)
Definition do_move (pick : nat -> nat) (r : runner) (g : ggame) (s : S) (c : colour)
  : runner * ggame * S * res unit :=
  match b_get_move B c s with
  | (s1, Err e) => (r, g, s1, Err e)
  | (s1, Ok ABad) => (r, g, s1, Err ValueError)
  | (s1, Ok (AForfeit why)) => ended_without_move r c (record_forfeit_by over_callback g s1 c why)
  | (s1, Ok AResign) => ended_without_move r c (record_resignation_by over_callback g s1 c)
  | (s1, Ok AClaim) => ended_without_move r c (record_claim_by over_callback g s1 c)
  | (s1, Ok (AMove m)) =>
      match record_move over_callback pick g s1 c m with
      | (g2, s2, Err e) => (r, g2, s2, Err e)
      | (g2, s2, Ok _) =>
          match b_comment B c s2 with
          | (s3, Err e) => (r, g2, s3, Err e)
          | (s3, Ok cm) =>
              if gm_forfeited g2 then (set_final c cm r, g2, s3, Ok tt)
              else
                match b_notify B (opponent_of c) m s3 with
                | (s4, Err e) => (r, g2, s4, Err e)
                | (s4, Ok SBad) => (r, g2, s4, Err ValueError)
                | (s4, Ok st) =>
                    let forfeit :=
                      if gm_over g2 then None
                      else match st with
                           | SReject msg => Some (c, msg)
                           | SError msg => Some (opponent_of c, msg)
                           | _ => None
                           end in
                    match forfeit with
                    | Some (loser, msg) =>
                        match record_forfeit_by over_callback g2 s4 loser msg with
                        | (g5, s5, Err e) => (r, g5, s5, Err e)
                        | (g5, s5, Ok _) => (set_final c cm r, g5, s5, Ok tt)
                        end
                    | None =>
                        let r5 := add_move (c, m, cm) r in
                        match b_after B with
                        | None => (r5, g2, s4, Ok tt)
                        | Some f => let (s5, x) := f c m (gm_board g2) s4 in (r5, g2, s5, x)
                        end
                    end
                end
          end
      end
  end.

(** gameplay.py:745-750 [_set_result]. *)
Definition set_result (r : runner) (g : ggame) (s : S) : rout :=
  if gm_passed_out g then
    match b_score B (gm_board g) s with
    | (s1, Err e) => (r, s1, Err e)
    | (s1, Ok sc) =>
        let r1 := with_score sc r in
        match result_from_game_score sc with
        | Err e => (r1, s1, Err e)
        | Ok x => (with_result x r1, s1, Ok tt)
        end
    end
  else
    match result_from_unscored g with
    | Err e => (r, s, Err e)
    | Ok x => (with_result x r, s, Ok tt)
    end.

(** gameplay.py:773-774: [while not game.is_over]. *)
Fixpoint run_loop (fuel : nat) (pick : nat -> nat) (r : runner) (g : ggame) (s : S) : rout :=
  if gm_over g then set_result r g s
  else
    match fuel with
    | O => (r, s, Err OutOfFuel)
    | Datatypes.S fuel' =>
        match gm_next g with
        | None => (r, s, Err KeyError)               (* opponent_of(None) *)
        | Some c =>
            match do_move pick r g s c with
            | (r1, g1, s1, Err e) => (r1, s1, Err e)
            | (r1, g1, s1, Ok _) => run_loop fuel' pick r1 g1 s1
            end
        end
    end.

(** gameplay.py:752-776 [run].  (A game without a move limit need not end: the model runs at
    most [fuel] rounds.) *)
Definition run (fuel : nat) (pick : nat -> nat) (r : runner) (s : S) : rout :=
  if negb ((ru_state r =? 1) || (ru_state r =? 2)) then (r, s, Err GameRunnerStateError)
  else
    match make_game pick r with
    | Err e => (r, s, Err e)
    | Ok g => run_loop fuel pick (with_state 3 r) g s
    end.

End Runner.
