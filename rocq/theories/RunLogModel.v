(** Model of what a run of the ringmaster writes to its log and shows on the screen:
    gomill/ringmasters.py (run, get_job, process_response, process_error_response,
    _update_display, _halt_competition) and gomill/ringmaster_presenters.py. *)
From Verif Require Import Base Bytes PyStr Dict RingModel TournModel ReportModel.
Open Scope Z_scope.

(** ** Log entries: what is passed to [Ringmaster.log] *)
Inductive entry : Type :=
| LRun (now : bytes) (max_games : option Z)       (* ringmasters.py:696 *)
| LWorkers (n : Z)                                (* ringmasters.py:698 *)
| LStart (id b w : bytes)                         (* ringmasters.py:619-624 *)
| LResponse (id : bytes)                          (* ringmasters.py:632 *)
| LWarning (text : bytes)                         (* a warning from a game or about the command file *)
| LNote (text : bytes)                            (* ringmasters.py:635-636: a log entry from a game *)
| LVoid (id message : bytes)                      (* ringmasters.py:647-648 *)
| LHalt (reason : bytes)                          (* ringmasters.py:516 *)
| LText (text : bytes)                            (* ringmasters.py:708-724: the end of the run *)
| LProgress (ids : list bytes).                   (* ringmasters.py:680-686 *)

Definition line_of (e : entry) : bytes :=
  match e with
  | LRun now m => str "run started at " ++ now ++ str " with max_games " ++
                  match m with Some n => str_int n | None => str "None" end
  | LWorkers n => str "using " ++ str_int n ++ str " worker processes"
  | LStart id b w => str "starting game " ++ id ++ str ": " ++ b ++ str " (b) vs " ++ w ++ str " (w)"
  | LResponse id => str "response from game " ++ id
  | LWarning t => t
  | LNote t => t
  | LVoid id m => str "game " ++ id ++ str " -- " ++ m
  | LHalt r => str "halting competition: " ++ r
  | LText t => t
  | LProgress ids => str "games in progress were: " ++ join (str " ") ids
  end.

(** ringmasters.py:332-334 [log]: the text of the log file. *)
Definition log_text (l : list entry) : bytes := List.concat (map (fun e => line_of e ++ [char_lf]) l).

(** ** ringmaster_presenters.py *)
Inductive channel : Type := Warnings | Status | ScreenReport | Results.

(** What appears: a line on standard error, a line on standard output, or a new screen. *)
Inductive shown : Type := OnStderr (s : bytes) | OnStdout (s : bytes) | Screen (text : bytes) | OnTerminal.

(** ringmaster_presenters.py:92-135: the contents of the boxes of the Clearing_presenter. *)
Record boxes : Type := mkBoxes { b_status : list bytes; b_report : list bytes; b_results : list bytes; b_warnings : list bytes }.
Definition no_boxes : boxes := mkBoxes [] [] [] [].
Definition put_box (c : channel) (l : list bytes) (b : boxes) : boxes :=
  match c with
  | Status => mkBoxes l (b_report b) (b_results b) (b_warnings b)
  | ScreenReport => mkBoxes (b_status b) l (b_results b) (b_warnings b)
  | Results => mkBoxes (b_status b) (b_report b) l (b_warnings b)
  | Warnings => mkBoxes (b_status b) (b_report b) (b_results b) l
  end.
Definition get_box (c : channel) (b : boxes) : list bytes :=
  match c with Status => b_status b | ScreenReport => b_report b | Results => b_results b | Warnings => b_warnings b end.

(** [None]: the Quiet_presenter (:74-89). *)
Definition presenter : Type := option boxes.

Definition p_clear (c : channel) (p : presenter) : presenter :=
  match p with None => None | Some b => Some (put_box c [] b) end.
Definition p_say (c : channel) (s : bytes) (p : presenter) : presenter * list shown :=
  match p with
  | None => (None, match c with Warnings => [OnStderr s] | _ => [] end)
  | Some b => (Some (put_box c (get_box c b ++ [s]) b), match c with Warnings => [OnStdout s] | _ => [] end)
  end.

(** [l[-n:]]. *)
Definition last_n {A} (n : nat) (l : list A) : list A := skipn (List.length l - n) l.

(** [Box.layout] (:101-102) and one turn of the loop in [refresh] (:139-147). *)
Definition show_box (heading : option bytes) (limit : nat) (blank : bool) (contents : list bytes) : bytes :=
  match contents with
  | [] => []
  | _ => (match heading with Some h => str "= " ++ h ++ str " = " ++ [char_lf] | None => [] end) ++
         join [char_lf] (last_n limit contents) ++ [char_lf] ++
         (if blank then [char_lf] else [])
  end.

(** [refresh] (:137-147), without the characters that clear the screen. *)
Definition p_refresh (p : presenter) : list shown :=
  match p with
  | None => []
  | Some b => [Screen (show_box None 999 true (b_status b) ++
                       show_box None 999 true (b_report b) ++
                       show_box (Some (str "Results")) 6 true (b_results b) ++
                       show_box (Some (str "Warnings")) 4 false (b_warnings b))]
  end.

(** [_Channel_writer.close] (:66-71): one trailing newline is removed. *)
Definition strip_newline (s : bytes) : bytes :=
  match rev s with c :: r => if ceqb c char_lf then rev r else s | [] => s end.

(** ** ringmasters.py *)
Section Run.
Context {CF C ST J R : Type}.
Variable comp : competition CF C ST J R.
Variable job_id : J -> bytes.
Variable response_id : R -> bytes.
Variable job_b job_w : J -> bytes.                 (* the players' codes *)
Variable warnings_from notes_from : R -> list bytes.   (* response.warnings, response.log_entries *)
Variable describe : R -> bytes.                    (* response.game_result.describe() *)
Variable result_text : R -> C -> option bytes.     (* what process_game_result returns *)
Variable screen_report : C -> bytes.               (* what write_screen_report writes *)
Variable workers : option Z.                       (* worker_count *)
Variable terminal : bool.                          (* terminal_reader.is_enabled() *)

Record run : Type := mkRun {
  u_ring : ring C J;
  u_reason : bytes;          (* stopping_reason *)
  u_log : list entry;
  u_presenter : presenter;
  u_shown : list shown
}.

Definition with_ring (g : ring C J) (x : run) : run := mkRun g (u_reason x) (u_log x) (u_presenter x) (u_shown x).

(** [log] (:332-334), [say] (:341-343) and [warn] (:336-339). *)
Definition log (e : entry) (x : run) : run := mkRun (u_ring x) (u_reason x) (u_log x ++ [e]) (u_presenter x) (u_shown x).
Definition say (c : channel) (s : bytes) (x : run) : run :=
  let '(p, o) := p_say c s (u_presenter x) in mkRun (u_ring x) (u_reason x) (u_log x) p (u_shown x ++ o).
Definition warn (e : entry) (x : run) : run := say Warnings (line_of e) (log e x).

(** :505-514 [_halt_competition]. *)
Definition halt_run (reason : bytes) (x : run) : run :=
  log (LHalt reason) (mkRun (halt (u_ring x)) reason (u_log x) (u_presenter x) (u_shown x)).

(** :526-546: the lines of the status box. *)
Definition status_lines (g : ring C J) (reason : bytes) : list bytes :=
  let idle := match r_prog g with [] => true | _ => false end in
  (if r_stopping g then
     [match workers, idle with
      | None, _ | _, true => str "halting: " ++ reason
      | Some _, false => str "waiting for workers to finish: " ++ reason
      end]
   else []) ++
  (if idle then []
   else [(match workers with
          | None => str "game"
          | Some _ => str_int (Z.of_nat (List.length (r_prog g))) ++ str " games"
          end) ++ str " in progress: " ++ join (str " ") (map fst (sort_keys (r_prog g)))]) ++
  (if r_stopping g then []
   else (match r_max g with
         | Some n => [str "will start at most " ++ str_int n ++ str " more games in this run"]
         | None => []
         end) ++
        (if terminal then [str "(Ctrl-X to halt gracefully)"] else [])).

(** :547-551: the text of the screen report. *)
Definition report_text (g : ring C J) : bytes :=
  (if 0 <? r_void g then str_int (r_void g) ++ str " void games; see log file." ++ [char_lf] else []) ++ screen_report (r_comp g).

(** :517-553 [_update_display]. *)
Definition display (x : run) : run :=
  match u_presenter x with
  | None => x
  | Some _ =>
      let g := u_ring x in
      let x1 := mkRun g (u_reason x) (u_log x) (p_clear Status (u_presenter x)) (u_shown x) in
      let x2 := fold_left (fun x s => say Status s x) (status_lines g (u_reason x)) x1 in
      let x3 := mkRun g (u_reason x2) (u_log x2) (p_clear ScreenReport (u_presenter x2)) (u_shown x2) in
      let x4 := say ScreenReport (strip_newline (report_text g)) x3 in
      mkRun (with_comp (c_report comp (r_comp g)) g) (u_reason x4) (u_log x4) (u_presenter x4) (u_shown x4 ++ p_refresh (u_presenter x4))
  end.

(** What [_get_job] finds: whether a stop is requested at the terminal; the command file (none,
    "stop" and perhaps an error when removing it, something else, an error when reading it);
    and which item [popitem] takes. *)
Inductive cmd_file : Type := NoCmd | StopCmd (err : option bytes) | OtherCmd | BadCmd (err : bytes).
Record found : Type := mkFound { f_terminal : bool; f_cmd : cmd_file; f_which : nat }.

(** :612-624: putting a job in progress. *)
Definition start_job (j : J) (x : run) : run := log (LStart (job_id j) (job_b j) (job_w j)) x.

(** :581-626 [_get_job]. *)
Definition try_job (i : found) (x : run) : run * res (option J) :=
  if r_stopping (u_ring x) then (x, Ok None)
  else if f_terminal i then
    let x1 := halt_run (str "stop instruction received from terminal") x in
    ((match u_presenter x with None => mkRun (u_ring x1) (u_reason x1) (u_log x1) (u_presenter x1) (u_shown x1 ++ [OnTerminal]) | Some _ => x1 end), Ok None)
  else
    match f_cmd i with
    | StopCmd e =>
        let x1 := halt_run (str "stop command received") x in
        ((match e with Some m => warn (LWarning (str "error removing .cmd file:" ++ [char_lf] ++ m)) x1 | None => x1 end), Ok None)
    | c =>
        let x0 := match c with BadCmd m => warn (LWarning (str "error reading .cmd file:" ++ [char_lf] ++ m)) x | _ => x end in
        let g := u_ring x0 in
        if match r_max g with Some m => m =? 0 | None => false end
        then (halt_run (str "max-games reached for this run") x0, Ok None)
        else
          let g1 := mkRing (r_comp g) (r_void g) (r_prog g) (r_replay g) (r_errors g) (r_stopping g)
                      (match r_max g with Some m => Some (m - 1) | None => None end) in
          match r_replay g1 with
          | kv :: _ =>
              let (k, j) := nth (f_which i) (r_replay g1) kv in
              (start_job j (with_ring (with_games (dset (job_id j) j (r_prog g1)) (ddel k (r_replay g1)) g1) x0), Ok (Some j))
          | [] =>
              match c_get comp (r_comp g1) with
              | (c, Err e) => (with_ring (with_comp c g1) x0, Err e)
              | (c, Ok None) => (with_ring (with_comp c g1) x0, Ok None)
              | (c, Ok (Some j)) =>
                  let g2 := with_comp c g1 in
                  if dmem (job_id j) (r_prog g2) then (with_ring g2 x0, Err RingmasterInternalError)
                  else (start_job j (with_ring (with_games (dset (job_id j) j (r_prog g2)) (r_replay g2) g2) x0), Ok (Some j))
              end
          end
    end.

(** :575-579 [get_job]. *)
Definition next_job (i : found) (x : run) : run * res (option J) :=
  match try_job i x with (x', Ok o) => (display x', Ok o) | (x', Err e) => (x', Err e) end.

(** :629-644 [process_response]. *)
Definition response (fail : option nat) (r : R) (x : run) (d : disk ST) : run * list (disk ST) * res unit :=
  let x1 := log (LResponse (response_id r)) x in
  let x2 := fold_left (fun x t => warn (LWarning t) x) (warnings_from r) x1 in
  let x3 := fold_left (fun x t => log (LNote t) x) (notes_from r) x2 in
  let g := u_ring x3 in
  match c_result comp r (r_comp g) with
  | (c, Err e) => (with_ring (with_comp c g) x3, [], Err e)
  | (c, Ok _) =>
      let g1 := with_comp c g in
      if dmem (response_id r) (r_prog g1) then
        let g2 := with_games (ddel (response_id r) (r_prog g1)) (r_replay g1) g1 in
        match write_status comp fail g2 d with
        | (ds, Err e) => (with_ring g2 x3, ds, Err e)
        | (ds, Ok _) =>
            (say Results (str "game " ++ response_id r ++ str ": " ++
                          match result_text r (r_comp g) with Some t => t | None => describe r end) (with_ring g2 x3), ds, Ok tt)
        end
      else (with_ring g1 x3, [], Err KeyError)
  end.

(** :646-665 [process_error_response]. *)
Definition error_response (fail : option nat) (j : J) (message : bytes) (x : run) (d : disk ST) : run * list (disk ST) * res unit :=
  let id := job_id j in
  let x1 := warn (LVoid id message) x in
  let g := u_ring x1 in
  let g1 := mkRing (r_comp g) (r_void g + 1) (r_prog g) (r_replay g) (r_errors g) (r_stopping g) (r_max g) in
  let prev := match dget id (r_errors g1) with Some n => n | None => 0 end in
  match c_error comp j prev (r_comp g1) with
  | (c, Err e) => (with_ring (with_comp c g1) x1, [], Err e)
  | (c, Ok (stop, retry)) =>
      let g2 := with_comp c g1 in
      match dget id (r_prog g2) with
      | None => (with_ring g2 x1, [], Err KeyError)
      | Some j' =>
          let g3 :=
            if retry && negb stop then
              mkRing (r_comp g2) (r_void g2) (ddel id (r_prog g2)) (dset id j' (r_replay g2))
                     (dset id (prev + 1) (r_errors g2)) (r_stopping g2) (r_max g2)
            else
              mkRing (r_comp g2) (r_void g2) (ddel id (r_prog g2)) (r_replay g2)
                     (if prev =? 0 then r_errors g2 else ddel id (r_errors g2)) (r_stopping g2) (r_max g2) in
          let x3 := with_ring g3 x1 in
          match write_status comp fail g3 d with
          | (ds, Err e) => (x3, ds, Err e)
          | (ds, Ok _) =>
              ((if stop && negb (r_stopping g3)
                then halt_run (str "too many void games") (say Warnings (str "halting run due to void games") x3)
                else x3), ds, Ok tt)
          end
      end
  end.

(** ** :667-724 [run]: before and after [run_jobs] *)

(** [g]: the state that was loaded ([RingModel.start] without the display). *)
Definition open_run (quiet : bool) (now : bytes) (max_games : option Z) (g : ring C J) : run :=
  display (mkRun g [] ([LRun now max_games] ++ match workers with Some n => [LWorkers n] | None => [] end)
             (if quiet then None else Some no_boxes) []).

(** How run_jobs ended; the texts are those of the exceptions. *)
Inductive ending : Type :=
| Finished
| Interrupted                   (* KeyboardInterrupt *)
| Failed (text : bytes)         (* RingmasterError, CompetitionError *)
| Internal (text : bytes)       (* JobSourceError, RingmasterInternalError *)
| Unexpected (traceback : bytes).

Definition in_progress (x : run) : entry := LProgress (map fst (sort_keys (r_prog (u_ring x)))).
(** The log at the end. *)
Definition close_run (e : ending) (now : bytes) (x : run) : run :=
  match e with
  | Finished => log (LText (str "run finished at " ++ now)) x
  | Interrupted => log (in_progress x) (log (LText (str "run interrupted at " ++ now)) x)
  | Failed t => log (in_progress x) (log (LText (str "run finished with error at " ++ now ++ [char_lf] ++ t)) x)
  | Internal t => log (in_progress x) (log (LText (str "run finished with internal error at " ++ now ++ [char_lf] ++ t)) x)
  | Unexpected t => log (in_progress x) (log (LText t) (log (LText (str "run finished with internal error at " ++ now)) x))
  end.

(** What happens in a run. *)
Inductive op : Type :=
| OGet (i : found)
| OResponse (fail : option nat) (r : R)
| OError (fail : option nat) (j : J) (message : bytes).
Definition step (o : op) (s : run * disk ST) : (run * disk ST) * res (option J) :=
  match o with
  | OGet i => let '(x, a) := next_job i (fst s) in ((x, snd s), a)
  | OResponse f r => let '(x, ds, a) := response f r (fst s) (snd s) in
                     ((x, last ds (snd s)), match a with Ok _ => Ok None | Err e => Err e end)
  | OError f j m => let '(x, ds, a) := error_response f j m (fst s) (snd s) in
                    ((x, last ds (snd s)), match a with Ok _ => Ok None | Err e => Err e end)
  end.

(** Operations that succeed, one after the other. *)
Fixpoint steps (os : list op) (s : run * disk ST) : option (run * disk ST) :=
  match os with
  | [] => Some s
  | o :: rest => match step o s with (s', Ok _) => steps rest s' | (_, Err _) => None end
  end.
End Run.
Arguments run : clear implicits.
