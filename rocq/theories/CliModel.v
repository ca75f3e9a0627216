(** Model of gomill/ringmaster_command_line.py and of the methods of gomill/ringmasters.py that
    it calls: what the 'ringmaster' command asks for, says and exits with.

    Everything that can fail or depends on the outside world is a call; a call may give any
    answer or raise any exception, depending on all that happened before (so files may come and
    go, and a keyboard interrupt may arrive, between any two calls).  The command line is given
    after optparse's work: the options and the other arguments.  Writing to standard output and
    standard error doesn't fail. *)
From Verif Require Import Base Bytes PyStr RingFilesModel.
Open Scope Z_scope.

(** The exceptions that matter; [XOther]: any other subclass of Exception, [XExit]: one that
    isn't a subclass of Exception (SystemExit). *)
Inductive exn : Type :=
| XRing (text : bytes)          (* ringmasters.py:49-50 RingmasterError *)
| XInternal (text : bytes)      (* ringmasters.py:52-53 RingmasterInternalError *)
| XCompetition (text : bytes)   (* competitions.py:16-21 CompetitionError *)
| XControl (text : bytes)       (* competitions.py:26-27 ControlFileError *)
| XCheck (text : bytes)         (* game_jobs.py:398-399 CheckFailed *)
| XJobSource (text : bytes)     (* job_manager.py:14-15 JobSourceError *)
| XUnpickling (text : bytes)    (* pickle.UnpicklingError *)
| XEnvironment (text : bytes)   (* EnvironmentError: IOError, OSError *)
| XKey (text : bytes)           (* KeyError *)
| XOther (text : bytes)
| XKeyboard                     (* KeyboardInterrupt *)
| XExit.

Inductive outcome (A : Type) : Type := Good (a : A) | Raise (e : exn).
Arguments Good {A} a.
Arguments Raise {A} e.

(** ringmasters.py:408-440: what is in a status file.  [Pair]: a pair of a number and a dict, of
    which only three keys matter; [Strange]: something else. *)
Record status_dict (ST : Type) : Type := mkStatus { sd_vn : option Z; sd_void : option Z; sd_comp : option ST }.
Arguments mkStatus {ST}. Arguments sd_vn {ST}. Arguments sd_void {ST}. Arguments sd_comp {ST}.
Inductive pickled (ST : Type) : Type := Pair (version : Z) (s : status_dict ST) | Strange.
Arguments Pair {ST}. Arguments Strange {ST}.

(** ringmaster_command_line.py:76-84: the options. *)
Record options : Type := mkOptions { o_max_games : option Z; o_parallel : option Z; o_quiet : bool; o_log_gtp : bool }.

Section Cli.
Context {ST : Type}.

(** What is asked of the outside. *)
Inductive call : Type :=
| ControlExists                  (* os.path.exists(ctl_pathname) *)
| ReadControl                    (* ringmasters.py:129-135 _read_control_file *)
| Interpret                      (* :27-47 interpret_python; the answer is competition_type if that's a string *)
| InitRingmaster                 (* :313-324 _initialise_from_control_file; the answer is skip_player_checks *)
| InitCompetition                (* Competition.initialise_from_control_file *)
| PlayerChecks                   (* Competition.get_player_checks: the codes of the players *)
| CheckPlayer (code : bytes) (discard_stderr : bool)  (* game_jobs.py:411-469 check_player *)
| StatusExists                   (* :451-453 status_file_exists *)
| ReadStatus                     (* :403-406 _load_status *)
| SetStatus (void : Z) (s : ST)  (* Competition.set_status *)
| SetClean                       (* Competition.set_clean_status *)
| OpenFiles (log_gtp : bool)     (* :247-294 _open_files *)
| RunJobs (quiet : bool) (workers max_games : option Z)  (* job_manager.run_jobs *)
| CloseFiles                     (* :296-305 _close_files *)
| WriteReport                    (* :494-498 report *)
| WriteCommand (text : bytes)    (* the body of :462-476 write_command *)
| ShortReport                    (* :500-506 print_status_report *)
| DeleteAll                      (* :727-754 delete_state_and_output *)
| PrintStatus.                   (* pprint, :459-460 *)

Definition answer (c : call) : Type :=
  match c with
  | ControlExists | StatusExists | InitRingmaster => bool
  | ReadControl => bytes
  | Interpret => option bytes
  | PlayerChecks => list bytes
  | CheckPlayer _ _ => list bytes
  | ReadStatus => pickled ST
  | _ => unit
  end.

(** What happens. *)
Inductive event : Type :=
| Called (c : call) (r : outcome (answer c))
| Said (line : bytes)          (* on standard output *)
| Complained (text : bytes).   (* on standard error *)
Definition history : Type := list event.
Definition world : Type := forall c : call, history -> outcome (answer c).

Variable w : world.
Variable decodes : bytes -> bool.      (* whether a text is UTF-8 *)
Variable comp_vn : Z.                  (* Competition.status_format_version *)
Variable brief : exn -> bytes.         (* compact_tracebacks.format_error_and_line *)
Variable traceback : exn -> bytes.     (* compact_tracebacks.format_traceback *)

Definition M (A : Type) : Type := history -> history * outcome A.
Definition ret {A} (a : A) : M A := fun h => (h, Good a).
Definition raise {A} (e : exn) : M A := fun h => (h, Raise e).
Definition bind {A B} (m : M A) (f : A -> M B) : M B := fun h =>
  let '(h', r) := m h in match r with Good a => f a h' | Raise e => (h', Raise e) end.
Definition catch {A} (m : M A) (f : exn -> M A) : M A := fun h =>
  let '(h', r) := m h in match r with Good a => (h', Good a) | Raise e => f e h' end.
Definition ask (c : call) : M (answer c) := fun h => let r := w c h in (h ++ [Called c r], r).
Definition say (line : bytes) : M unit := fun h => (h ++ [Said line], Good tt).
Definition complain (line : bytes) : M unit := fun h => (h ++ [Complained line], Good tt).
Notation "'act' x <- m ; k" := (bind m (fun x => k)) (at level 200, x name, right associativity).
Notation "m ;; k" := (bind m (fun _ => k)) (at level 100, k at level 200, right associativity).
Definition when (b : bool) (m : M unit) : M unit := if b then m else ret tt.
Fixpoint each {A} (l : list A) (f : A -> M unit) : M unit :=
  match l with [] => ret tt | a :: r => f a ;; each r f end.

(** ringmasters.py:66-68: format version of the status file. *)
Definition status_format_version : Z := 0.

Definition nl : bytes := [char_lf].

(** ringmasters.py:137-189 [_load_control_file]; the answer is skip_player_checks. *)
Definition wrap_init {A} (m : M A) : M A :=
  catch m (fun e =>
    match e with
    | XControl _ => raise e
    | XKeyboard | XExit => raise e
    | _ => raise (XRing (str "unhandled error in control file:" ++ nl ++ traceback e))
    end).
Definition load_control_file : M bool :=
  act s <- catch (ask ReadControl) (fun e =>
      match e with XEnvironment t => raise (XRing (str "failed to read control file:" ++ nl ++ t)) | _ => raise e end) ;
  match parse_competition_type s with
  | Err _ => raise (XControl (str "can't find competition_type"))
  | Ok t =>
      match get_competition_class t with
      | Err _ => raise (XControl (str "unknown competition type: " ++ t))
      | Ok _ =>
          if negb (decodes s) then raise (XControl (str "file is not encoded in utf-8"))
          else
            act ct <- catch (ask Interpret) (fun e =>
                match e with
                | XKeyboard => raise e
                | XControl _ => raise e
                | _ => raise (XControl (brief e))
                end) ;
            if match ct with Some u => bytes_eqb u t | None => false end
            then act skip <- wrap_init (ask InitRingmaster) ;
                 wrap_init (ask InitCompetition) ;;
                 ret skip
            else raise (XControl (str "competition_type improperly specified"))
      end
  end.

(** ringmasters.py:77-116 [__init__]. *)
Definition extension (control : bytes) : bytes := snd (splitext (snd (os_split control))).
Definition make_ringmaster (control : bytes) : M bool :=
  if existsb (bytes_eqb (extension control)) forbidden
  then raise (XRing (str "forbidden control file extension: " ++ extension control))
  else catch load_control_file (fun e =>
         match e with XControl t => raise (XRing (str "error in control file:" ++ nl ++ t)) | _ => raise e end).

(** ringmasters.py:756-790 [check_players]. *)
Fixpoint check_each (l : list bytes) (discard_stderr : bool) : M bool :=
  match l with
  | [] => ret true
  | code :: rest =>
      when (negb discard_stderr) (say (str "checking player " ++ code)) ;;
      act r <- catch (act msgs <- ask (CheckPlayer code discard_stderr) ; ret (Some msgs))
                    (fun e => match e with
                              | XCheck t => say (str "player " ++ code ++ str " failed startup check:" ++ nl ++ t) ;; ret None
                              | _ => raise e
                              end) ;
      match r with
      | None => ret false
      | Some msgs => when (negb discard_stderr) (each msgs say) ;; check_each rest discard_stderr
      end
  end.
Definition check_players (skip_player_checks discard_stderr quiet : bool) : M bool :=
  act to_check <- catch (ask PlayerChecks) (fun e => match e with XCompetition t => raise (XRing t) | _ => raise e end) ;
  if skip_player_checks && discard_stderr
  then when (negb quiet) (say (str "skipping " ++ str_int (Z.of_nat (List.length to_check)) ++ str " Player checks")) ;; ret true
  else check_each to_check discard_stderr.

(** ringmasters.py:408-438 [load_status]: reading the file, up to [competition_status = status['comp']]. *)
Definition quoted (t : bytes) : bytes := str "'" ++ t ++ str "'".
Definition read_status : M (Z * ST) :=
  act p <- ask ReadStatus ;
  match p with
  | Strange => raise (XOther [])
  | Pair v s =>
      if negb (v =? status_format_version) then raise (XOther [])
      else match sd_vn s with
           | None => raise (XKey (quoted (str "comp_vn")))
           | Some n =>
               if negb (n =? comp_vn) then raise (XOther [])
               else match sd_void s with
                    | None => raise (XKey (quoted (str "void_game_count")))
                    | Some void => match sd_comp s with
                                   | None => raise (XKey (quoted (str "comp")))
                                   | Some st => ret (void, st)
                                   end
                    end
           end
  end.
Definition load_status : M unit :=
  act x <- catch read_status (fun e =>
     match e with
     | XUnpickling _ => raise (XRing (str "corrupt status file"))
     | XEnvironment t => raise (XRing (str "error loading status file:" ++ nl ++ t))
     | XKey t => raise (XRing (str "incompatible status file: missing " ++ t))
     | XKeyboard | XExit => raise e
     | _ => raise (XRing (str "incompatible status file"))
     end) ;
  catch (ask (SetStatus (fst x) (snd x))) (fun e =>
    match e with
    | XCompetition t => raise (XRing (str "error loading competition state: " ++ t))
    | XKey t => raise (XRing (str "error loading competition state: missing " ++ t))
    | XKeyboard | XExit => raise e
    | _ => raise (XRing (str "error loading competition state:" ++ nl ++ traceback e))
    end).

(** ringmasters.py:440-449 [set_clean_status]. *)
Definition set_clean_status : M unit :=
  catch (ask SetClean) (fun e => match e with XCompetition t => raise (XRing t) | _ => raise e end).

(** ringmasters.py:667-725 [run], without its log and display (RunLogModel.v). *)
Definition run_competition (log_gtp quiet : bool) (workers max_games : option Z) : M unit :=
  ask (OpenFiles log_gtp) ;;
  catch (ask (RunJobs quiet workers max_games)) (fun e =>
    match e with
    | XRing t => raise (XRing t)
    | XCompetition t => raise (XRing t)
    | XJobSource t => raise (XInternal t)
    | XInternal t => raise (XInternal t)
    | _ => raise e
    end) ;;
  ask CloseFiles.

(** ringmasters.py:462-476 [write_command]. *)
Definition write_command (text : bytes) : M unit :=
  catch (ask (WriteCommand text)) (fun e =>
    match e with XEnvironment t => raise (XRing (str "error writing command file:" ++ nl ++ t)) | _ => raise e end).

(** ringmasters.py:455-460 [print_status]; unpacking something else than a pair fails. *)
Definition print_status : M unit :=
  act p <- ask ReadStatus ;
  match p with Strange => raise (XOther []) | Pair _ _ => ask PrintStatus end.

(** ringmaster_command_line.py:15-66.  The actions give an exit status ([None] for an implicit return). *)
Inductive command : Type := Run | Stop | Show | Report | Reset | Check | Debugstatus.
Definition do_run (skip : bool) (o : options) : M (option Z) :=
  when (negb (o_quiet o)) (say (str "running startup checks on all players")) ;;
  act ok <- check_players skip true (o_quiet o) ;
  if negb ok
  then say (str "(use the 'check' command to see stderr output)") ;; ret (Some 1)
  else
    act e <- ask StatusExists ;
    (if e then load_status else set_clean_status) ;;
    run_competition (o_log_gtp o) (o_quiet o) (o_parallel o) (o_max_games o) ;;
    ask WriteReport ;;
    ret None.
Definition with_status (c : call) (k : answer c -> M (option Z)) : M (option Z) :=
  act e <- ask StatusExists ;
  if negb e then raise (XRing (str "no status file"))
  else load_status ;; act a <- ask c ; k a.
Definition action (c : command) (skip : bool) (o : options) : M (option Z) :=
  match c with
  | Run => do_run skip o
  | Stop => write_command (str "stop") ;; ret None
  | Show => with_status ShortReport (fun _ => ret None)
  | Report => with_status WriteReport (fun _ => ret None)
  | Reset => ask DeleteAll ;; ret None
  | Check => act ok <- check_players skip false (o_quiet o) ; ret (if ok then None else Some 1)
  | Debugstatus => print_status ;; ret None
  end.

(** ringmaster_command_line.py:59-67 [_actions]. *)
Definition find_action (name : bytes) : option command :=
  if bytes_eqb name (str "run") then Some Run
  else if bytes_eqb name (str "stop") then Some Stop
  else if bytes_eqb name (str "show") then Some Show
  else if bytes_eqb name (str "report") then Some Report
  else if bytes_eqb name (str "reset") then Some Reset
  else if bytes_eqb name (str "check") then Some Check
  else if bytes_eqb name (str "debugstatus") then Some Debugstatus
  else None.

(** ringmaster_command_line.py:97-115: the exit status, with [sys.exit(None)] being 0. *)
Definition perform (c : command) (control : bytes) (o : options) : history * Z :=
  let body :=
    act e <- ask ControlExists ;
    if negb e then raise (XRing (str "control file " ++ control ++ str " not found"))
    else act skip <- make_ringmaster control ; action c skip o in
  match body [] with
  | (h, Good None) => (h, 0)
  | (h, Good (Some n)) => (h, n)
  | (h, Raise (XRing t)) => (h ++ [Complained (str "ringmaster: " ++ t ++ nl)], 1)
  | (h, Raise XKeyboard) => (h, 3)
  | (h, Raise (XInternal t)) => (h ++ [Complained (str "ringmaster: internal error" ++ nl ++ t ++ nl)], 4)
  | (h, Raise e) => (h ++ [Complained (str "ringmaster: internal error" ++ nl ++ traceback e)], 4)
  end.

(** ringmaster_command_line.py:85-96: [parser.error] writes to standard error (the usage and this
    message) and exits with status 2. *)
Definition usage_error (message : bytes) : history * Z :=
  ([Complained (str "ringmaster: error: " ++ message ++ nl)], 2).
Definition main (o : options) (args : list bytes) : history * Z :=
  match args with
  | [] => usage_error (str "no control file specified")
  | [control] => perform Run control o
  | [control; name] =>
      match find_action name with
      | None => usage_error (str "no such command: " ++ name)
      | Some c => perform c control o
      end
  | _ => usage_error (str "too many arguments")
  end.
End Cli.
