(** What a run's log and display are to say. *)
From Verif Require Import Base Bytes PyStr Dict RingModel RunLogModel.
Open Scope Z_scope.

(** ** The log *)

(** The lines of the log. *)
Definition says (e : entry) : list bytes :=
  match e with
  | LRun now None => [str "run started at "; now; str " with max_games None"]
  | LRun now (Some n) => [str "run started at "; now; str " with max_games "; str_int n]
  | LWorkers n => [str "using "; str_int n; str " worker processes"]
  | LStart id b w => [str "starting game "; id; str ": "; b; str " (b) vs "; w; str " (w)"]
  | LResponse id => [str "response from game "; id]
  | LWarning t => [t]
  | LNote t => [t]
  | LVoid id m => [str "game "; id; str " -- "; m]
  | LHalt r => [str "halting competition: "; r]
  | LText t => [t]
  | LProgress [] => [str "games in progress were: "]
  | LProgress (i :: l) => str "games in progress were: " :: i :: flat_map (fun j => [str " "; j]) l
  end.
Definition file_of (l : list entry) : bytes := flat_map (fun e => List.concat (says e) ++ [char_lf]) l.

(** Game [id] is in progress, by the log: it was started and it has ended in neither way since. *)
Definition ends (id : bytes) (e : entry) : Prop := e = LResponse id \/ exists m, e = LVoid id m.
Definition open_in (l : list entry) (id : bytes) : Prop :=
  exists l1 b w l2, l = l1 ++ LStart id b w :: l2 /\ forall e, In e l2 -> ~ ends id e.

(** [ids] are those games, in order. *)
Definition in_order (ids : list bytes) : Prop :=
  NoDup ids /\ forall i j a b, (i < j)%nat -> nth_error ids i = Some a -> nth_error ids j = Some b -> bytes_ltb b a = false.
Definition games_open (l : list entry) (ids : list bytes) : Prop :=
  in_order ids /\ forall id, In id ids <-> open_in l id.

(** The run halts at most once, and starts nothing after that. *)
Definition halts_once (l : list entry) : Prop :=
  forall l1 r l2, l = l1 ++ LHalt r :: l2 ->
    (forall r', ~ In (LHalt r') l2) /\ (forall id b w, ~ In (LStart id b w) l2).

Definition is_start (e : entry) : bool := match e with LStart _ _ _ => true | _ => false end.
Definition is_void (e : entry) : bool := match e with LVoid _ _ => true | _ => false end.
Definition starts (l : list entry) : Z := Z.of_nat (List.length (filter is_start l)).
Definition voids (l : list entry) : Z := Z.of_nat (List.length (filter is_void l)).

(** The warnings, by the log; a run that halts because of void games has one that isn't logged. *)
Definition warnings_of (l : list entry) : list bytes :=
  flat_map (fun e => match e with
                     | LWarning t => [t]
                     | LVoid id m => [str "game " ++ id ++ str " -- " ++ m]
                     | LHalt r => if bytes_eqb r (str "too many void games") then [str "halting run due to void games"] else []
                     | _ => []
                     end) l.

(** The lines on standard error and on standard output, but for whole screens. *)
Definition err_lines (l : list shown) : list bytes := flat_map (fun s => match s with OnStderr t => [t] | _ => [] end) l.
Definition out_lines (l : list shown) : list bytes := flat_map (fun s => match s with OnStdout t => [t] | _ => [] end) l.
Definition screens (l : list shown) : list bytes := flat_map (fun s => match s with Screen t => [t] | _ => [] end) l.

(** ** The screen *)
Definition lines (l : list bytes) : bytes := flat_map (fun s => s ++ [char_lf]) l.

(** The last [n] of [l]. *)
Definition tail_of {A} (n : nat) (l t : list A) : Prop := exists h, l = h ++ t /\ (h = [] /\ (List.length t <= n)%nat \/ List.length t = n).

(** The lines about the state of the run: [l] is its log, [left] the number of games that may
    still be started. *)
Definition status_says (workers : option Z) (terminal : bool) (l : list entry) (left : option Z) (st : list bytes) : Prop :=
  exists ids a b c,
    games_open l ids /\ st = a ++ b ++ c /\
    ((~ (exists r, In (LHalt r) l) /\ a = [] /\
      c = (match left with Some n => [str "will start at most " ++ str_int n ++ str " more games in this run"] | None => [] end) ++
          (if terminal then [str "(Ctrl-X to halt gracefully)"] else [])) \/
     (exists r, In (LHalt r) l /\ c = [] /\
        ((workers = None \/ ids = []) /\ a = [str "halting: " ++ r] \/
         workers <> None /\ ids <> [] /\ a = [str "waiting for workers to finish: " ++ r]))) /\
    (ids = [] /\ b = [] \/
     exists i rest, ids = i :: rest /\
       b = [(match workers with None => str "game" | Some _ => str_int (Z.of_nat (List.length ids)) ++ str " games" end) ++
            str " in progress: " ++ i ++ flat_map (fun j => str " " ++ j) rest]).

(** The report: the void games, if any, and the competition's own. *)
Definition report_says (void : Z) (competition : bytes) (text : bytes) : Prop :=
  (exists v, text = v ++ competition /\ (void <= 0 /\ v = [] \/ 0 < void /\ v = str_int void ++ str " void games; see log file." ++ [char_lf])).

(** The text without a newline at its end. *)
Definition unended (t u : bytes) : Prop := t = u ++ [char_lf] \/ (t = u /\ ~ exists v, u = v ++ [char_lf]).

Definition screen_says (st : list bytes) (report : bytes) (results warnings : list bytes) (text : bytes) : Prop :=
  exists r6 w4 a b c,
    tail_of 6 results r6 /\ tail_of 4 warnings w4 /\
    (st = [] /\ a = [] \/ st <> [] /\ a = lines st ++ [char_lf]) /\
    (results = [] /\ b = [] \/ results <> [] /\ b = str "= Results = " ++ [char_lf] ++ lines r6 ++ [char_lf]) /\
    (warnings = [] /\ c = [] \/ warnings <> [] /\ c = str "= Warnings = " ++ [char_lf] ++ lines w4) /\
    text = a ++ report ++ [char_lf; char_lf] ++ b ++ c.

Section Run.
Context {CF C ST J R : Type}.
Variable comp : competition CF C ST J R.
Variable job_id : J -> bytes.
Variable response_id : R -> bytes.
Variable job_b job_w : J -> bytes.
Variable warnings_from notes_from : R -> list bytes.
Variable describe : R -> bytes.
Variable result_text : R -> C -> option bytes.
Variable screen_report : C -> bytes.
Variable workers : option Z.
Variable terminal : bool.

(** The results that were said in a run. *)
Fixpoint results_of (os : list (@op J R)) (s : run C J * disk ST) : list bytes :=
  match os with
  | [] => []
  | o :: rest =>
      (match o with
       | OResponse _ r => [str "game " ++ response_id r ++ str ": " ++
                           match result_text r (r_comp (u_ring (fst s))) with Some t => t | None => describe r end]
       | _ => []
       end) ++
      results_of rest (fst (step comp job_id response_id job_b job_w warnings_from notes_from describe result_text screen_report workers terminal o s))
  end.

(** How often a game was asked for. *)
Definition gets (os : list (@op J R)) : Z :=
  Z.of_nat (List.length (filter (fun o => match o with OGet _ => true | _ => false end) os)).
End Run.

(** A state that has just been loaded. *)
Definition loaded {C J} (g : ring C J) : Prop := r_prog g = [] /\ r_replay g = [] /\ r_stopping g = false.

(** What the ringmaster's model without texts (RingModel.v) is told. *)
Definition input_of (quiet : bool) (i : found) : ginput :=
  mkGI (f_terminal i) (match f_cmd i with StopCmd _ => true | _ => false end) (f_which i) (negb quiet).
