(** What the 'ringmaster' command is to do. *)
From Verif Require Import Base Bytes PyStr RingFilesModel CliModel.
Open Scope Z_scope.

Section Spec.
Context {ST : Type}.
Notation event := (@event ST).
Notation history := (@history ST).
Notation call := (@call ST).

(** ** Reading a history *)
Definition calls (h : history) : list call := flat_map (fun v => match v with Called c _ => [c] | _ => [] end) h.
Definition said (h : history) : list bytes := flat_map (fun v => match v with Said t => [t] | _ => [] end) h.
Definition complaints (h : history) : list bytes := flat_map (fun v => match v with Complained t => [t] | _ => [] end) h.
(** The calls that raised an exception. *)
Definition raises (h : history) : list (call * exn) :=
  flat_map (fun v => match v with Called c (Raise e) => [(c, e)] | _ => [] end) h.

(** ** The plan of each command *)
Definition opening : list call := [ControlExists; ReadControl; Interpret; InitRingmaster; InitCompetition].
Definition loading (void : Z) (st : ST) : list call := [StatusExists; ReadStatus; SetStatus void st].

(** [codes]: the players to check. *)
Inductive planned (o : options) (codes : list bytes) : command -> list call -> Prop :=
| plan_run checked l : checked = [] \/ checked = codes ->
    l = [StatusExists; SetClean] \/ (exists void st, l = loading void st) ->
    planned o codes Run (PlayerChecks :: map (fun c => CheckPlayer c true) checked ++ l ++
      [OpenFiles (o_log_gtp o); RunJobs (o_quiet o) (o_parallel o) (o_max_games o); CloseFiles; WriteReport])
| plan_stop : planned o codes Stop [WriteCommand (str "stop")]
| plan_show void st : planned o codes Show (loading void st ++ [ShortReport])
| plan_report void st : planned o codes Report (loading void st ++ [WriteReport])
| plan_reset : planned o codes Reset [DeleteAll]
| plan_check : planned o codes Check (PlayerChecks :: map (fun c => CheckPlayer c false) codes)
| plan_debug : planned o codes Debugstatus [ReadStatus; PrintStatus].

Definition prefix {A} (l m : list A) : Prop := exists r, m = l ++ r.

(** The commands by name. *)
Definition named : list (bytes * command) :=
  [(str "run", Run); (str "stop", Stop); (str "show", Show); (str "report", Report); (str "reset", Reset);
   (str "check", Check); (str "debugstatus", Debugstatus)].

(** ** Exit status and messages *)
Section Verdicts.
Variable decodes : bytes -> bool.
Variable comp_vn : Z.
Variable brief traceback : exn -> bytes.
Notation lf := [char_lf].

(** An error of the user's: status 1 and a message.  A bug: status 4 and more text. *)
Definition user (t : bytes) : Z * list bytes := (1, [str "ringmaster: " ++ t ++ lf]).
Definition bug (t : bytes) : Z * list bytes := (4, [str "ringmaster: internal error" ++ lf ++ t]).
Definition plain (e : exn) : Z * list bytes :=
  match e with
  | XRing t => user t
  | XKeyboard => (3, [])
  | XInternal t => bug (t ++ lf)
  | _ => bug (traceback e)
  end.

(** What becomes of the command if a call raises an exception. *)
Definition verdict (c : command) (q : call) (e : exn) : Z * list bytes :=
  match q, e with
  | (ReadControl | Interpret | InitRingmaster | InitCompetition), XControl t => user (str "error in control file:" ++ lf ++ t)
  | ReadControl, XEnvironment t => user (str "failed to read control file:" ++ lf ++ t)
  | Interpret, XKeyboard => plain e
  | Interpret, _ => user (str "error in control file:" ++ lf ++ brief e)
  | (InitRingmaster | InitCompetition | SetStatus _ _), (XKeyboard | XExit) => plain e
  | (InitRingmaster | InitCompetition), _ => user (str "unhandled error in control file:" ++ lf ++ traceback e)
  | (PlayerChecks | SetClean | RunJobs _ _ _), XCompetition t => user t
  | RunJobs _ _ _, XJobSource t => bug (t ++ lf)
  | CheckPlayer _ _, XCheck _ => (1, [])
  | SetStatus _ _, XCompetition t => user (str "error loading competition state: " ++ t)
  | SetStatus _ _, XKey t => user (str "error loading competition state: missing " ++ t)
  | SetStatus _ _, _ => user (str "error loading competition state:" ++ lf ++ traceback e)
  | WriteCommand _, XEnvironment t => user (str "error writing command file:" ++ lf ++ t)
  | ReadStatus, _ =>
      match c, e with
      | Debugstatus, _ => plain e
      | _, XUnpickling _ => user (str "corrupt status file")
      | _, XEnvironment t => user (str "error loading status file:" ++ lf ++ t)
      | _, XKey t => user (str "incompatible status file: missing " ++ t)
      | _, (XKeyboard | XExit) => plain e
      | _, _ => user (str "incompatible status file")
      end
  | _, _ => plain e
  end.

(** What is wrong with a status file, or nothing. *)
Definition status_problem (p : pickled ST) : option bytes :=
  match p with
  | Pair 0 s =>
      match sd_vn s with
      | None => Some (str "incompatible status file: missing 'comp_vn'")
      | Some n =>
          if n =? comp_vn
          then match sd_void s, sd_comp s with
               | None, _ => Some (str "incompatible status file: missing 'void_game_count'")
               | Some _, None => Some (str "incompatible status file: missing 'comp'")
               | Some _, Some _ => None
               end
          else Some (str "incompatible status file")
      end
  | _ => Some (str "incompatible status file")
  end.

(** The command is refused although nothing raised an exception: [h] is the history before the message. *)
Inductive refused (c : command) (control : bytes) (h : history) : Z * list bytes -> Prop :=
| no_control : h = [Called ControlExists (Good false)] ->
    refused c control h (user (str "control file " ++ control ++ str " not found"))
| bad_name ext : h = [Called ControlExists (Good true)] -> ext = snd (splitext (snd (os_split control))) ->
    In ext (map str [".log"; ".status"; ".cmd"; ".hist"; ".report"; ".games"; ".void"; ".gtplogs"]%string) ->
    refused c control h (user (str "forbidden control file extension: " ++ ext))
| no_type l s e : h = l ++ [Called ReadControl (Good s)] -> parse_competition_type s = Err e ->
    refused c control h (user (str "error in control file:" ++ lf ++ str "can't find competition_type"))
| unknown_type l s t e : h = l ++ [Called ReadControl (Good s)] -> parse_competition_type s = Ok t -> get_competition_class t = Err e ->
    refused c control h (user (str "error in control file:" ++ lf ++ str "unknown competition type: " ++ t))
| not_utf8 l s : h = l ++ [Called ReadControl (Good s)] -> decodes s = false ->
    refused c control h (user (str "error in control file:" ++ lf ++ str "file is not encoded in utf-8"))
| other_type l s t ct : h = l ++ [Called ReadControl (Good s); Called Interpret (Good ct)] -> parse_competition_type s = Ok t -> ct <> Some t ->
    refused c control h (user (str "error in control file:" ++ lf ++ str "competition_type improperly specified"))
| no_status l : c = Show \/ c = Report -> h = l ++ [Called StatusExists (Good false)] -> refused c control h (user (str "no status file"))
| bad_status l p t : c <> Debugstatus -> h = l ++ [Called ReadStatus (Good p)] -> status_problem p = Some t -> refused c control h (user t)
| odd_status l : c = Debugstatus -> h = l ++ [Called ReadStatus (Good Strange)] -> refused c control h (bug (traceback (XOther []))).
End Verdicts.

(** ** What has happened before each call *)

(** All the players have passed their checks, or these are to be skipped. *)
Definition checks_done (h : history) : Prop :=
  exists codes, In (Called PlayerChecks (Good codes)) h /\
    (In (Called InitRingmaster (Good true)) h \/
     forall code, In code codes -> exists messages, In (Called (CheckPlayer code true) (Good messages)) h).
(** A saved state of the right version has been read and passed to the competition; or there was none. *)
Definition saved_state (comp_vn : Z) (void : Z) (st : ST) : event :=
  Called ReadStatus (Good (Pair 0 (mkStatus (Some comp_vn) (Some void) (Some st)))).
Definition state_loaded (comp_vn : Z) (h : history) : Prop :=
  exists void st l1 l2, h = l1 ++ [Called StatusExists (Good true); saved_state comp_vn void st; Called (SetStatus void st) (Good tt)] ++ l2.
Definition state_clean (h : history) : Prop :=
  exists l1 l2, h = l1 ++ [Called StatusExists (Good false); Called SetClean (Good tt)] ++ l2.

Definition ready (comp_vn : Z) (c : command) (o : options) (q : call) (h : history) : Prop :=
  match q with
  | CheckPlayer code _ => exists codes, In (Called PlayerChecks (Good codes)) h /\ In code codes
  | StatusExists => c = Show \/ c = Report \/ (c = Run /\ checks_done h)
  | SetStatus void st => exists l, h = l ++ [Called StatusExists (Good true); saved_state comp_vn void st]
  | SetClean => c = Run /\ exists l, h = l ++ [Called StatusExists (Good false)]
  | OpenFiles g => c = Run /\ g = o_log_gtp o /\ checks_done h /\ (state_loaded comp_vn h \/ state_clean h)
  | RunJobs quiet workers max_games =>
      c = Run /\ quiet = o_quiet o /\ workers = o_parallel o /\ max_games = o_max_games o /\
      checks_done h /\ (state_loaded comp_vn h \/ state_clean h) /\ exists l, h = l ++ [Called (OpenFiles (o_log_gtp o)) (Good tt)]
  | WriteReport =>
      (c = Run /\ exists l r, h = l ++ [Called (RunJobs (o_quiet o) (o_parallel o) (o_max_games o)) (Good tt); Called CloseFiles r]) \/
      (c = Report /\ state_loaded comp_vn h)
  | ShortReport => c = Show /\ state_loaded comp_vn h
  | WriteCommand t => c = Stop /\ t = str "stop"
  | DeleteAll => c = Reset
  | _ => True
  end.

(** ** Standard output *)

(** What is said about each call; [skip]: the player checks are skipped. *)
Definition said_of (c : command) (o : options) (skip : bool) (v : event) : list bytes :=
  match v with
  | Called PlayerChecks r =>
      match c, o_quiet o with
      | Run, false =>
          str "running startup checks on all players" ::
          match r with
          | Good l => if skip then [str "skipping " ++ str_int (Z.of_nat (List.length l)) ++ str " Player checks"] else []
          | Raise _ => []
          end
      | _, _ => []
      end
  | Called (CheckPlayer code discard_stderr) r =>
      (if discard_stderr then [] else [str "checking player " ++ code]) ++
      match r with
      | Raise (XCheck t) =>
          (str "player " ++ code ++ str " failed startup check:" ++ [char_lf] ++ t) ::
          match c with Run => [str "(use the 'check' command to see stderr output)"] | _ => [] end
      | Raise _ => []
      | Good messages => if discard_stderr then [] else messages
      end
  | _ => []
  end.
Definition skipped (h : history) : bool :=
  existsb (fun v => match v with Called InitRingmaster (Good true) => true | _ => false end) h.
End Spec.
