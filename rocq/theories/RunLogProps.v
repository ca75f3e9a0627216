(** C71: the log and the display of a run. *)
From Verif Require Import Base Bytes PyStr Dict RingModel ReportModel RunLogModel RunLogSpec RunLogProofs RunLogRunProofs RunLogMainProofs RunLogStepProofs RunLogEndProofs.
Open Scope Z_scope.

(** The text of the log file, entry by entry. *)
Theorem C71_log_file l : log_text l = file_of l.
Proof. exact (log_says l). Qed.
Print Assumptions C71_log_file.

Section Run.
Context {CF C ST J R : Type}.
Variable comp : competition CF C ST J R.
Variable job_id : J -> bytes.
Variable response_id : R -> bytes.
Variable job_b job_w : J -> bytes.
Variable warnings_from notes_from : R -> list bytes.
Variable describe : R -> bytes.
Variable result_text : R -> C -> option bytes.
Variable screen_report : C -> bytes.
Variable workers : option Z.
Variable terminal : bool.
Notation steps := (steps comp job_id response_id job_b job_w warnings_from notes_from describe result_text screen_report workers terminal).
Notation results_of := (results_of comp job_id response_id job_b job_w warnings_from notes_from describe result_text screen_report workers terminal).
Notation open_run := (open_run comp screen_report workers terminal).

(** The log has at most one entry that says the run halts; no game is started after it; and
    no more games are started than asked for. *)
Theorem C71_run_log quiet now m g d os x d' : loaded g -> r_max g = m -> steps os (open_run quiet now m g, d) = Some (x, d') ->
  halts_once (u_log x) /\ (forall k, m = Some k -> 0 <= k -> starts (u_log x) <= k).
Proof. exact (run_log_proof comp job_id response_id job_b job_w warnings_from notes_from describe result_text screen_report workers terminal quiet now m g d os x d'). Qed.

(** Every warning is shown, at once and in order: on standard error in quiet mode, where
    nothing else is shown, and otherwise on standard output. *)
Theorem C71_warnings_shown quiet now m g d os x d' : loaded g -> r_max g = m -> steps os (open_run quiet now m g, d) = Some (x, d') ->
  if quiet then err_lines (u_shown x) = warnings_of (u_log x) /\ out_lines (u_shown x) = [] /\ screens (u_shown x) = []
  else err_lines (u_shown x) = [] /\ out_lines (u_shown x) = warnings_of (u_log x).
Proof. exact (warnings_proof comp job_id response_id job_b job_w warnings_from notes_from describe result_text screen_report workers terminal quiet now m g d os x d'). Qed.

(** Whenever a game has been asked for, the new screen says what the log says: the games in
    progress, why the run is halting or how many games it may still start, the number of void
    games, the competition's report, the last six results and the last four warnings. *)
Theorem C71_screen now m g d os i x d' : loaded g -> r_max g = m -> steps (os ++ [OGet i]) (open_run false now m g, d) = Some (x, d') ->
  exists before text st rep u c,
    u_shown x = before ++ [Screen text] /\
    status_says workers terminal (u_log x) (option_map (fun k => k - gets (os ++ [OGet i])) m) st /\
    r_comp (u_ring x) = c_report comp c /\ report_says (r_void g + voids (u_log x)) (screen_report c) rep /\ unended rep u /\
    screen_says st u (results_of (os ++ [OGet i]) (open_run false now m g, d)) (warnings_of (u_log x)) text.
Proof. exact (shown_proof comp job_id response_id job_b job_w warnings_from notes_from describe result_text screen_report workers terminal now m g d os i x d'). Qed.

(** When a run ends early, the log says which games were in progress. *)
Theorem C71_end quiet now m g d os x d' e now' : loaded g -> r_max g = m -> steps os (open_run quiet now m g, d) = Some (x, d') ->
  exists ids, games_open (u_log x) ids /\
    u_log (close_run e now' x) = u_log x ++
      match e with
      | Finished => [LText (str "run finished at " ++ now')]
      | Interrupted => [LText (str "run interrupted at " ++ now'); LProgress ids]
      | Failed t => [LText (str "run finished with error at " ++ now' ++ [char_lf] ++ t); LProgress ids]
      | Internal t => [LText (str "run finished with internal error at " ++ now' ++ [char_lf] ++ t); LProgress ids]
      | Unexpected t => [LText (str "run finished with internal error at " ++ now'); LText t; LProgress ids]
      end.
Proof. exact (end_proof comp job_id response_id job_b job_w warnings_from notes_from describe result_text screen_report workers terminal quiet now m g d os x d' e now'). Qed.

(** Apart from texts, this is the ringmaster of C29: what that model is proved to do, this one does. *)
Theorem C71_same_ringmaster quiet now m g d os x d' : loaded g -> r_max g = m -> steps os (open_run quiet now m g, d) = Some (x, d') ->
  (forall i, (let '(y, a) := next_job comp job_id job_b job_w screen_report workers terminal i x in (u_ring y, a)) =
             get_job comp job_id (input_of quiet i) (u_ring x)) /\
  (forall f r, (let '(y, ds, a) := response comp response_id warnings_from notes_from describe result_text f r x d' in (u_ring y, ds, a)) =
               process_response comp response_id f r (u_ring x) d') /\
  (forall f j msg, (let '(y, ds, a) := error_response comp job_id f j msg x d' in (u_ring y, ds, a)) =
                   process_error_response comp job_id f j (u_ring x) d').
Proof.
  intros LD M E. refine (same_proof comp job_id response_id job_b job_w warnings_from notes_from describe result_text screen_report workers terminal quiet x d' _).
  exact (proj2 (proj2 (log_proof comp job_id response_id job_b job_w warnings_from notes_from describe result_text screen_report workers terminal quiet now m g d os x d' LD M E))).
Qed.

(** The states these theorems start from are those that the ringmaster loads. *)
Theorem C71_start_states cf m d g : start comp cf m false d = Ok g -> loaded g /\ r_max g = m.
Proof.
  unfold start. destruct (d_status d) as [[v st|]|]; [|discriminate|].
  - destruct (c_load comp cf st) as [c|e]; [|discriminate]. intros E. injection E as <-. repeat split.
  - destruct (c_clean comp cf) as [c|e]; [|discriminate]. intros E. injection E as <-. repeat split.
Qed.
End Run.
Print Assumptions C71_run_log.
Print Assumptions C71_warnings_shown.
Print Assumptions C71_screen.
Print Assumptions C71_end.
Print Assumptions C71_same_ringmaster.
Print Assumptions C71_start_states.

(** ** A concrete run: games g0, g1, ...; the second error stops the competition *)
Definition demo_comp : competition unit Z Z Z Z :=
  mkComp unit Z Z Z Z (fun _ => Ok 0) (fun _ n => Ok n) (fun n => n) (fun n => (n + 1, Ok (Some n)))
    (fun _ n => (n, Ok tt)) (fun _ k n => (n, Ok (0 <? k, true))) (fun n => n).
Definition demo_id (j : Z) : bytes := str "g" ++ str_int j.
Definition demo_run (quiet : bool) (os : list (@op Z Z)) : option (run Z Z * disk Z) :=
  match start demo_comp tt (Some 5) false (mkDisk None None) with
  | Ok g => steps demo_comp demo_id demo_id (fun _ => str "x") (fun _ => str "y") (fun r => [str "odd result " ++ str_int r])
              (fun _ => [str "no problems"]) (fun _ => str "y beat x") (fun _ _ => None) (fun n => str "games issued: " ++ str_int n ++ [char_lf])
              (Some 2) true os (open_run demo_comp (fun n => str "games issued: " ++ str_int n ++ [char_lf]) (Some 2) true quiet (str "noon") (Some 5) g, mkDisk None None)
  | Err _ => None
  end.
Definition demo_get : @op Z Z := OGet (mkFound false NoCmd 0).
Definition demo_ops : list (@op Z Z) :=
  [demo_get; demo_get; OResponse None 1; demo_get; OError None 0 (str "engine died"); demo_get].
Definition demo_log (quiet : bool) (os : list (@op Z Z)) : option bytes := option_map (fun s => log_text (u_log (close_run Interrupted (str "one") (fst s)))) (demo_run quiet os).
Definition demo_shown (quiet : bool) (os : list (@op Z Z)) : option (list shown) := option_map (fun s => u_shown (fst s)) (demo_run quiet os).

Example C71_demo_log : demo_log false demo_ops = Some (lines (map str
  ["run started at noon with max_games 5";
   "using 2 worker processes";
   "starting game g0: x (b) vs y (w)";
   "starting game g1: x (b) vs y (w)";
   "response from game g1";
   "odd result 1";
   "no problems";
   "starting game g2: x (b) vs y (w)";
   "game g0 -- engine died";
   "starting game g0: x (b) vs y (w)";
   "run interrupted at one";
   "games in progress were: g0 g2"]%string)).
Proof. vm_compute. reflexivity. Qed.

Example C71_demo_screen : option_map (fun l => last l OnTerminal) (demo_shown false demo_ops) = Some (Screen (lines (map str
  ["2 games in progress: g0 g2";
   "will start at most 1 more games in this run";
   "(Ctrl-X to halt gracefully)";
   "";
   "1 void games; see log file.";
   "games issued: 3";
   "";
   "= Results = ";
   "game g1: y beat x";
   "";
   "= Warnings = ";
   "odd result 1";
   "game g0 -- engine died"]%string))).
Proof. vm_compute. reflexivity. Qed.

(** Quiet mode, and a run that halts because of a second error. *)
Definition demo_fatal : list (@op Z Z) := demo_ops ++ [OError None 0 (str "engine died"); demo_get].
Example C71_demo_quiet : demo_shown true demo_fatal =
  Some [OnStderr (str "odd result 1"); OnStderr (str "game g0 -- engine died"); OnStderr (str "game g0 -- engine died"); OnStderr (str "halting run due to void games")].
Proof. vm_compute. reflexivity. Qed.
Example C71_demo_halting : option_map (fun l => last l OnTerminal) (demo_shown false demo_fatal) = Some (Screen (lines (map str
  ["waiting for workers to finish: too many void games";
   "1 games in progress: g2";
   "";
   "2 void games; see log file.";
   "games issued: 3";
   "";
   "= Results = ";
   "game g1: y beat x";
   "";
   "= Warnings = ";
   "odd result 1";
   "game g0 -- engine died";
   "game g0 -- engine died";
   "halting run due to void games"]%string))).
Proof. vm_compute. reflexivity. Qed.
