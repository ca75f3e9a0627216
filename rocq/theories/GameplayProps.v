(** Property theorems for gomill/gameplay.py (C31 - C33). *)
From Coq Require Import QArith.
From Verif Require Import Base Bytes PyStr BoardModel BoardSpec CommonModel SgfPropsModel GameplayModel GameplaySpec
  GameplayProofs GameplayRunProofs GameplayResultProofs.
Open Scope Z_scope.

(** ** C31: Game objects *)

(** Each call does what [game_step] says it does, and the callback is called exactly when the
    call ends the game (after everything else), its result being that of the call. *)
Theorem C31_each_call :
  forall (E : Type) (cb : option (ggame -> E -> E * res unit)) s limit pick g e x o g' e' r,
  s <= 25 -> shows s limit g x -> (forall p, s_ko (gs_sit x) = Some p -> on_board s p) ->
  call cb pick g e o = (g', e', r) ->
  exists y out, game_step s limit x o y out /\ shows s limit g' y /\
    (forall p, s_ko (gs_sit y) = Some p -> on_board s p) /\
    match gs_end x, gs_end y with
    | None, Some _ => out = None /\ match cb with None => e' = e /\ r = Ok tt | Some f => (e', r) = f g' e end
    | _, _ => e' = e /\ r = match out with None => Ok tt | Some ex => Err ex end
    end.
Proof. exact @call_step. Qed.
Print Assumptions C31_each_call.

(** Any history of calls on a new game: the game is what the history makes it; and the
    environment has been changed by exactly one call of the callback if the game is over, and
    by none if it is not.  (So with [E := nat] and a counting callback: 1 or 0.) *)
Theorem C31_history :
  forall (E : Type) (cb : option (ggame -> E -> E * res unit)) s limit pick b first e os g e' rs,
  s <= 25 -> reachable s b ->
  run_calls cb pick (new_ggame b limit first) e os = (g, e', rs) ->
  exists hist x, map fst hist = os /\
    game_history s limit (mkGS (start (view b) first) 0 None) hist x /\ shows s limit g x /\
    match gs_end x with
    | None => e' = e
    | Some _ => match cb with None => e' = e | Some f => e' = fst (f g e) end
    end.
Proof.
  intros E cb s limit pick b first e os g e' rs S25 Rb H.
  refine (run_calls_history cb s limit pick S25 os _ e _ g e' rs (new_game_shows s limit b first Rb) _ eq_refl H).
  intros p K; discriminate K.
Qed.
Print Assumptions C31_history.

(** A game that is over stays as it is, and every further call raises GameStateError. *)
Theorem C31_over_is_final :
  forall (E : Type) (cb : option (ggame -> E -> E * res unit)) s limit pick g e x os g' e' rs,
  shows s limit g x -> gs_end x <> None -> run_calls cb pick g e os = (g', e', rs) ->
  g' = g /\ e' = e /\ rs = map (fun _ => Err GameStateError) os.
Proof. exact @over_stays. Qed.
Print Assumptions C31_over_is_final.

(** What the histories give: the moves are those of a legal game, with alternating players,
    and not more than the limit allows; a game ends as passed out only after two consecutive
    passes and by the move limit only when it is reached, and it goes on only if the limit is
    not reached and (unless there was an attempt to play off the board) there were not two
    consecutive passes. *)
Theorem C31_moves_and_reasons :
  forall s limit pos first hist x,
  game_history s limit (mkGS (start pos first) 0 None) hist x ->
  let moves := s_moves (gs_sit x) in
  legal_game s (start pos first) (gs_sit x) /\ alternates first moves /\
  (forall n, limit = Some n -> Z.of_nat (List.length moves) <= Z.max 1 n) /\
  (gs_end x = Some PassedOut -> two_passes moves) /\
  (gs_end x = Some MoveLimit -> limit_reached limit moves) /\
  (gs_end x = None -> moves = [] \/ ~ limit_reached limit moves) /\
  (gs_end x = None -> (forall o out, In (o, out) hist -> out <> Some IndexError) -> ~ two_passes moves).
Proof.
  intros s limit pos first hist x H moves.
  pose proof (hist_ok_history _ _ _ _ _ _ H) as (A & B & _ & D).
  split; [exact A|]. split; [|split; [exact D|]].
  - apply (legal_game_turn s first _ _ A). split; [exact I|reflexivity].
  - split; [intros E; rewrite E in B; exact B|]. split; [intros E; rewrite E in B; exact B|].
    split; [intros E; rewrite E in B; tauto|].
    intros E NI. exact (proj1 (streak_exact _ _ _ _ _ _ H NI E)).
Qed.
Print Assumptions C31_moves_and_reasons.

(** Exactly one reason, and a winner exactly for resignation, claim and forfeit. *)
Theorem C31_one_reason :
  forall s limit g x, shows s limit g x ->
  (gm_over g = true <-> gs_end x <> None) /\
  (gm_over g = true ->
     List.length (filter (fun f => f) [gm_passed_out g; gm_resigned g; gm_claimed g; gm_forfeited g; gm_hit_limit g]) = 1%nat /\
     (gm_winner g <> None <-> gm_resigned g = true \/ gm_claimed g = true \/ gm_forfeited g = true) /\
     (gm_reason g <> None <-> gm_forfeited g = true)) /\
  (gm_over g = false ->
     forallb negb [gm_passed_out g; gm_resigned g; gm_claimed g; gm_forfeited g; gm_hit_limit g] = true /\
     gm_winner g = None).
Proof.
  intros s limit g x (_ & _ & _ & _ & _ & En).
  destruct (gs_end x) as [e|].
  - destruct En as [(Q1 & Q2 & Q3 & Q4 & Q5 & Q6 & Q7 & Q8) _]. rewrite Q1, Q2, Q3, Q4, Q5, Q6, Q7, Q8.
    split; [split; [discriminate|reflexivity]|]. split; [|discriminate]. intros _.
    destruct e; cbn; (split; [reflexivity|]); split; split; try congruence; try tauto; intros [|[|]]; congruence.
  - destruct En as [(Q1 & Q2 & Q3 & Q4 & Q5 & Q6 & Q7 & Q8) _]. rewrite Q1, Q2, Q3, Q4, Q5, Q6, Q7.
    split; [split; [discriminate|congruence]|]. split; [discriminate|]. cbn. auto.
Qed.
Print Assumptions C31_one_reason.

Definition empty9 : board := match new_board 9 with Ok b => b | Err _ => mkBoard 0 [] false end.
Definition play_calls (limit : option Z) (os : list game_call) : ggame * nat * list (res unit) :=
  run_calls (Some (fun _ n => (Datatypes.S n, Ok tt))) (fun _ => O) (new_ggame empty9 limit Black) O os.
Example C31_demo :
  let '(g, n, rs) := play_calls None [CMove Black (Some (2, 2)); CMove Black None; CMove White None; CMove Black None; CResign Black] in
  n = 1%nat /\ rs = [Ok tt; Err GameStateError; Ok tt; Ok tt; Err GameStateError] /\
  reports g PassedOut /\ gm_moves g = 3.
Proof. vm_compute. repeat split. Qed.
Example C31_demo_occupied :
  let '(g, n, rs) := play_calls None [CMove Black (Some (2, 2)); CMove White (Some (2, 2))] in
  n = 1%nat /\ reports g (Forfeited White (str "attempted move to occupied point C3")) /\ gm_moves g = 1.
Proof. vm_compute. repeat split. Qed.
Example C31_demo_limit :
  let '(g, n, rs) := play_calls (Some 2) [CMove Black (Some (2, 2)); CMove White None; CMove Black None] in
  n = 1%nat /\ reports g MoveLimit /\ rs = [Ok tt; Ok tt; Err GameStateError].
Proof. vm_compute. repeat split. Qed.
(** Trying to play off the board raises IndexError, but also makes the game forget a pass. *)
Example C31_demo_off_board :
  let '(g, n, rs) := play_calls None [CMove Black None; CMove White (Some (9, 0)); CMove White None] in
  n = 0%nat /\ rs = [Ok tt; Err IndexError; Ok tt] /\ gm_over g = false.
Proof. vm_compute. repeat split. Qed.

(** ** C32: Game_runner *)

(** Preparation. *)
Theorem C32_prepare :
  forall (S : Type) (B : backend S) size komi limit s r' s',
  prepare B (new_runner size komi limit) s = (r', s', Ok tt) ->
  r' = with_state 1 (new_runner size komi limit) /\ b_start B size komi s = (s', Ok tt) /\ ready r' size limit None.
Proof. exact @prepare_ok. Qed.
Print Assumptions C32_prepare.

Theorem C32_set_free_handicap :
  forall (S : Type) (B : backend S) size limit r s n r' s',
  ready r size limit None -> set_handicap B r s n true = (r', s', Ok tt) ->
  ru_state r = 1 /\ 2 <= n <= size * size - 1 /\
  exists pts s1, b_free B n s = (s1, Ok pts) /\ b_notify_free B pts s1 = (s', Ok tt) /\
    ready r' size limit (Some pts) /\ ru_handicap r' = Some n.
Proof. exact @set_handicap_free_ok. Qed.
Print Assumptions C32_set_free_handicap.

Theorem C32_set_fixed_handicap :
  forall (S : Type) (B : backend S) size limit r s n r' s',
  ready r size limit None -> set_handicap B r s n false = (r', s', Ok tt) ->
  ru_state r = 1 /\
  exists pts s1, handicap_points n size = Ok pts /\
    b_notify_fixed B Black n pts s = (s1, Ok tt) /\ b_notify_fixed B White n pts s1 = (s', Ok tt) /\
    ready r' size limit (Some pts) /\ ru_handicap r' = Some n.
Proof. exact @set_handicap_fixed_ok. Qed.
Print Assumptions C32_set_fixed_handicap.

Theorem C32_order_of_operations :
  forall (S : Type) (B : backend S) pick fuel r s n fr,
  (ru_state r <> 0 -> prepare B r s = (r, s, Err GameRunnerStateError)) /\
  (ru_state r <> 1 -> set_handicap B r s n fr = (r, s, Err GameRunnerStateError)) /\
  (ru_state r <> 1 -> ru_state r <> 2 -> run B fuel pick r s = (r, s, Err GameRunnerStateError)).
Proof. exact @wrong_state. Qed.
Print Assumptions C32_order_of_operations.

(** Running: for every backend, the calls made and the responses (recorded by [logged]) are
    those of a complete game whose moves, final message, score and result the runner shows;
    or, if an exception is raised, those of a game broken off by it, and the moves are the
    completed ones.  [fuel] bounds the number of rounds (games without a limit need not
    end). *)
Theorem C32_run :
  forall (S : Type) (B : backend S) pick fuel r s0 r' s1 log out size limit stones,
  let has_callback := match b_after B with Some _ => true | None => false end in
  2 <= size <= 25 -> ready r size limit stones ->
  (forall p, In p (match stones with Some l => l | None => [] end) -> on_board size p) ->
  run (logged B) fuel pick r (s0, []) = (r', (s1, log), out) ->
  exists pos, starting_position size stones pos /\
    let x := mkRS (start pos (first_player stones)) [] in
    match out with
    | Ok _ => exists y e final sc res,
        complete_game size limit has_callback x log y e final sc /\ ru_moves r' = rs_record y /\
        ru_final r' = final /\ ru_score r' = sc /\ ru_result r' = Some res /\
        match sc with
        | Some g => scored_result (gs_winner g) (gs_margin g) res /\ r_detail res = score_detail g
        | None => unscored_result e res
        end
    | Err e => ru_result r' = None /\
        exists y, ru_moves r' = rs_record y /\ interrupted_game size limit has_callback x log y /\
          (broke_off size log e \/
           e = OutOfFuel /\ quiet_rounds size limit has_callback x log y /\ List.length (rs_record y) = fuel)
    end.
Proof. exact @run_correct. Qed.
Print Assumptions C32_run.

(** Recording the calls changes nothing else. *)
Theorem C32_logging_is_transparent :
  forall (S : Type) (B : backend S) fuel pick r s l,
  match run (logged B) fuel pick r (s, l) with (r', (s', _), out) => (r', s', out) end = run B fuel pick r s.
Proof. exact @run_transparent. Qed.
Print Assumptions C32_logging_is_transparent.

(** With a move limit the run ends by itself (after at most that many rounds). *)
Theorem C32_terminates :
  forall (S : Type) (B : backend S) pick fuel r s0 r' s1 log e size n stones,
  2 <= size <= 25 -> ready r size (Some n) stones ->
  (forall p, In p (match stones with Some l => l | None => [] end) -> on_board size p) ->
  Z.max 1 n <= Z.of_nat fuel ->
  run (logged B) fuel pick r (s0, []) = (r', (s1, log), Err e) ->
  broke_off size log e.
Proof. exact @run_terminates. Qed.
Print Assumptions C32_terminates.

(** Whatever happens, the recorded moves are a legal game. *)
Theorem C32_record_replays :
  forall (S : Type) (B : backend S) pick fuel r s0 r' s1 log out size limit stones,
  2 <= size <= 25 -> ready r size limit stones ->
  (forall p, In p (match stones with Some l => l | None => [] end) -> on_board size p) ->
  run (logged B) fuel pick r (s0, []) = (r', (s1, log), out) ->
  exists pos, starting_position size stones pos /\
    record_is_legal size limit pos (first_player stones) (ru_moves r').
Proof. exact @run_record. Qed.
Print Assumptions C32_record_replays.

(** [end_game] is called exactly once in a completed game. *)
Theorem C32_end_game_once :
  forall (S : Type) (B : backend S) pick fuel r s0 r' s1 log size limit stones,
  2 <= size <= 25 -> ready r size limit stones ->
  (forall p, In p (match stones with Some l => l | None => [] end) -> on_board size p) ->
  run (logged B) fuel pick r (s0, []) = (r', (s1, log), Ok tt) ->
  filter is_end log = [EEnd (Ok tt)].
Proof. exact @run_ends_once. Qed.
Print Assumptions C32_end_game_once.

Theorem C32_off_board_handicap :
  forall (S : Type) (B : backend S) pick fuel r s size limit pts,
  2 <= size -> ready r size limit (Some pts) -> ~ (forall p, In p pts -> on_board size p) ->
  run B fuel pick r s = (r, s, Err IndexError).
Proof. exact @off_board_stones. Qed.
Print Assumptions C32_off_board_handicap.

(** A scripted backend: plays the listed actions, and rejects moves at (8, 8). *)
Definition script : Type := list action.
Definition scripted (cb : bool) : backend script :=
  mkBackend script (fun _ _ s => (s, Ok tt)) (fun s => (s, Ok tt)) (fun n s => (s, Ok [(0, 0); (1, 1)]))
    (fun _ s => (s, Ok tt)) (fun _ _ _ s => (s, Ok tt))
    (fun _ s => match s with [] => ([], Err (OtherError 7)) | a :: r => (r, Ok a) end)
    (fun _ m s => (s, Ok (match m with
                          | Some (8, 8) => SReject (str "no") | Some (7, 7) => SError (str "crash")
                          | _ => SAccept end)))
    (fun b s => (s, new_game_score (Some Black) (Some (35, 1%nat))))
    (fun c s => (s, Ok (match c with Black => Some (str "hm") | White => None end)))
    (if cb then Some (fun _ _ _ s => (s, Ok tt)) else None).
Definition run_script (cb : bool) (limit : option Z) (l : script) : runner * (script * list event) * res unit :=
  run (logged (scripted cb)) 20 (fun _ => O) (with_state 1 (new_runner 9 (65, 1%nat) limit)) (l, []).

Example C32_demo_ready : ready (with_state 1 (new_runner 9 (65, 1%nat) (Some 5))) 9 (Some 5) None.
Proof. unfold ready. cbn. auto 10. Qed.
Example C32_demo_passes :
  match run_script true None [AMove (Some (2, 2)); AMove None; AMove None] with
  | (r, (_, log), out) => out = Ok tt /\ option_map r_sgf (ru_result r) = Some (str "B+3.5") /\
      ru_moves r = [(Black, Some (2, 2), Some (str "hm")); (White, None, None); (Black, None, Some (str "hm"))] /\
      List.length log = 14%nat
  end.
Proof. vm_compute. repeat split. Qed.
Example C32_demo_rejected :
  match run_script false None [AMove (Some (2, 2)); AMove (Some (8, 8))] with
  | (r, (_, log), out) => out = Ok tt /\ option_map r_sgf (ru_result r) = Some (str "B+F") /\
      List.length (ru_moves r) = 1%nat
  end /\
  match run_script false None [AMove (Some (2, 2)); AMove (Some (7, 7))] with
  | (r, (_, log), out) => out = Ok tt /\ option_map r_sgf (ru_result r) = Some (str "W+F")
  end.
Proof. vm_compute. repeat split. Qed.
Example C32_demo_ko :
  (* White retakes the ko at once and loses *)
  let l := map (fun p => AMove (Some p)) [(1, 0); (1, 3); (0, 1); (0, 2); (2, 1); (2, 2); (1, 2); (1, 1); (1, 2)] in
  match run_script false None l with
  | (r, _, out) => out = Ok tt /\ option_map r_sgf (ru_result r) = Some (str "W+F") /\
      option_map r_detail (ru_result r) = Some (Some (str "attempted move to ko-forbidden point C2")) /\
      List.length (ru_moves r) = 8%nat /\ ru_final r = Some (Black, str "hm")
  end.
Proof. vm_compute. repeat split. Qed.
Example C32_demo_exception :
  match run_script false (Some 5) [AMove (Some (2, 2))] with
  | (r, _, out) => out = Err (OtherError 7) /\ ru_result r = None /\ List.length (ru_moves r) = 1%nat
  end.
Proof. vm_compute. repeat split. Qed.

(** ** C33: scores and results *)

Theorem C33_adjust_score :
  forall raw komi comp handicap,
  exists winner margin, adjust_score raw komi (Some comp) handicap = Ok (winner, margin) /\
    decides (inject_Z raw - value komi - inject_Z (deduction comp handicap)) winner (value margin).
Proof. exact C33_adjust_proof. Qed.
Print Assumptions C33_adjust_score.

Theorem C33_result_of_a_position :
  forall pick s b komi comp handicap, reachable s b ->
  exists raw g r, area_score_spec s (view b) raw /\
    score_from_position pick b komi (Some comp) handicap = Ok g /\
    decides (inject_Z raw - value komi - inject_Z (deduction comp handicap)) (gs_winner g)
            (match gs_margin g with Some m => value m | None => 0 end) /\
    result_from_game_score g = Ok r /\ scored_result (gs_winner g) (gs_margin g) r /\
    gs_margin g <> None /\ r_detail r = None.
Proof. exact C33_position_proof. Qed.
Print Assumptions C33_result_of_a_position.

(** Exactly the sensible combinations of winner and margin are accepted. *)
Theorem C33_score_accepted_iff_sensible :
  forall w m,
  (sensible w m -> new_game_score w m = Ok (mkScore w m false)) /\
  (~ sensible w m -> new_game_score w m = Err ValueError).
Proof. exact new_game_score_ok. Qed.
Print Assumptions C33_score_accepted_iff_sensible.

Theorem C33_result_accepted_iff_sensible :
  forall w m d,
  (sensible w m -> exists r, result_from_score w m d = Ok r /\ scored_result w m r /\ r_detail r = d) /\
  (~ sensible w m -> result_from_score w m d = Err ValueError).
Proof. exact result_from_score_ok. Qed.
Print Assumptions C33_result_accepted_iff_sensible.

(** The margin in the result text is the margin. *)
Theorem C33_margin_text :
  forall m, exists x, py_float (format_float m) = Ok x /\ (value x == value m)%Q.
Proof. exact format_float_reads. Qed.
Print Assumptions C33_margin_text.

(** An unscored game. *)
Theorem C33_unscored_result :
  forall g e, reports g e -> e <> PassedOut ->
  exists r, result_from_unscored g = Ok r /\ unscored_result e r.
Proof. exact unscored_ok. Qed.
Print Assumptions C33_unscored_result.

Example C33_demo :
  adjust_score 10 (75, 1%nat) (Some CompNo) 0 = Ok (Some Black, (25, 1%nat)) /\
  adjust_score 7 (7, 0%nat) (Some CompShort) 0 = Ok (None, (0, 0%nat)) /\
  adjust_score 7 (5, 1%nat) (Some CompShort) 4 = Ok (Some Black, (35, 1%nat)) /\
  adjust_score 7 (5, 1%nat) (Some CompFull) 8 = Ok (Some White, (15, 1%nat)) /\
  adjust_score 7 (5, 1%nat) None 8 = Err ValueError /\
  format_float (150, 2%nat) = str "1.5" /\ format_float (500, 2%nat) = str "5" /\ format_float (-25, 1%nat) = str "-2.5".
Proof. vm_compute. auto 10. Qed.
