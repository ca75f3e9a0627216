(** Model of gomill_examples/gomill_examples/gomill-clop: the connection script for CLOP, from the command
    line to what is printed.

    As in CliModel.v everything that can fail or depends on the outside world is a call,
    which may give any answer or raise any exception depending on all that happened before.
    Writing to standard output and standard error doesn't fail.  Loading the control file is
    one call; what Clop_tuner makes of the parameters in it is modelled apart from that.  *)
From Coq Require Import QArith.
From Verif Require Import Base Bytes PyStr GameplayModel TournModel SettingsModel RingFilesModel.
Open Scope Z_scope.

(** The exceptions that matter; [XOther]: any other subclass of Exception; [XExit]: one that
    isn't (SystemExit). *)
Inductive exn : Type :=
| XRing (text : bytes)          (* RingmasterError *)
| XInternal (text : bytes)      (* RingmasterInternalError *)
| XCompetition (text : bytes)   (* CompetitionError *)
| XJobFailed (text : bytes)     (* job_manager.JobFailed *)
| XEnvironment (text : bytes)   (* EnvironmentError *)
| XName                         (* NameError *)
| XOther (text : bytes)
| XKeyboard                     (* KeyboardInterrupt *)
| XExit.
Inductive outcome (A : Type) : Type := Good (a : A) | Raise (e : exn).
Arguments Good {A} a.
Arguments Raise {A} e.

(** ** The command line (Python 2's optparse, for a parser with only the option -h/--help) *)

(** What optparse makes of the arguments: the positional ones; or it shows the help
    (status 0) or a complaint (status 2) and exits. *)
Inductive parsed : Type := Args (l : list bytes) | Help | BadOption.

Definition char_dash : ascii := "-"%char.
Definition double_dash : bytes := [char_dash; char_dash].

(** [p] begins with [s]. *)
Fixpoint begins (s p : bytes) : bool :=
  match s, p with
  | [], _ => true
  | a :: s', b :: p' => ceqb a b && begins s' p'
  | _ :: _, [] => false
  end.

(** optparse's [_process_long_opt] and [_match_abbrev]: any abbreviation of --help will do; a
    value ("--help=...") won't. *)
Definition long_opt (arg : bytes) : parsed :=
  if existsb (fun c => ceqb c "="%char) arg then BadOption
  else if begins arg (str "--help") then Help else BadOption.
(** optparse's [_process_short_opts]: the first letter decides. *)
Definition short_opt (c : ascii) : parsed := if ceqb c "h"%char then Help else BadOption.

(** optparse's [_process_args] (with interspersed arguments allowed). *)
Fixpoint parse_args (argv : list bytes) (done : list bytes) : parsed :=
  match argv with
  | [] => Args (rev done)
  | arg :: rest =>
      match arg with
      | d1 :: d2 :: more =>
          if ceqb d1 char_dash then
            if ceqb d2 char_dash then
              match more with
              | [] => Args (rev done ++ rest)
              | _ => long_opt arg
              end
            else short_opt d2
          else parse_args rest (arg :: done)
      | _ => parse_args rest (arg :: done)
      end
  end.

(** ** The parameters in the control file *)

(** gomill_examples/gomill-clop:61-88 [Parameter_spec]. *)
Record pspec : Type := mkSpec { ps_code : bytes; ps_type : bytes; ps_integer : bool; ps_min : pyfloat; ps_max : pyfloat }.

(** A parameter in the control file after load_settings: code, type, min and max. *)
Record pconfig : Type := mkConf { pc_code : bytes; pc_type : bytes; pc_min : pyfloat; pc_max : pyfloat }.

(** ['Integer' in type]. *)
Fixpoint contains (w s : bytes) : bool :=
  begins w s || match s with [] => false | _ :: r => contains w r end.

(** [x != int(x)] ([None]: int raises an exception). *)
Definition not_integral (x : pyfloat) : option bool :=
  match x with
  | FNum q => Some (negb (Qnum q mod Zpos (Qden q) =? 0))
  | FInf _ => None
  | FNan => None
  end.

(** gomill_examples/gomill-clop:115-134 [parameter_spec_from_config] ([Error]: the control file is bad). *)
Definition parameter_spec_from_config (c : pconfig) : option pspec :=
  let i := contains (str "Integer") (pc_type c) in
  let s := mkSpec (pc_code c) (pc_type c) i (pc_min c) (pc_max c) in
  if i then
    match not_integral (pc_min c) with
    | Some false => match not_integral (pc_max c) with Some false => Some s | _ => None end
    | _ => None
    end
  else Some s.

(** gomill_examples/gomill-clop:155-169: the loop.  [None] in the argument: load_settings raises an
    exception; [None] as result: ControlFileError. *)
Fixpoint spec_loop (l : list (option pconfig)) (seen : list bytes) : option (list pspec) :=
  match l with
  | [] => Some []
  | None :: _ => None
  | Some c :: rest =>
      match parameter_spec_from_config c with
      | None => None
      | Some s =>
          if existsb (bytes_eqb (ps_code s)) seen then None
          else option_map (cons s) (spec_loop rest (ps_code s :: seen))
      end
  end.
(** gomill_examples/gomill-clop:152-169, part of [initialise_from_control_file]. *)
Definition initialise_parameters (l : list (option pconfig)) : option (list pspec) :=
  match l with [] => None | _ => spec_loop l [] end.

Section Clop.
Context {F : Type}.       (* floats, as read by float() *)
Context {P CFG : Type}.   (* game_jobs.Player; Player_config *)
Variable pcode : P -> bytes.             (* Player.code *)
Variable read_float : bytes -> option F. (* float(s); None: ValueError *)
Variable show_float : F -> bytes.        (* str(f) *)
Variable percent_f : pyfloat -> bytes.   (* "%f" % x *)
Variable percent_d : pyfloat -> bytes.   (* "%d" % x *)

(** An engine parameter. *)
Inductive param : Type := PInt (z : Z) | PFloat (f : F).

(** gomill_examples/gomill-clop:68-74 [format_for_clop]. *)
Definition format_for_clop (s : pspec) : bytes :=
  let fmt := if ps_integer s then percent_d else percent_f in
  ps_type s ++ str " " ++ ps_code s ++ str " " ++ fmt (ps_min s) ++ str " " ++ fmt (ps_max s).

(** gomill_examples/gomill-clop:76-85 [interpret_value]. *)
Definition interpret_value (s : pspec) (v : bytes) : option param :=
  if ps_integer s then match py_int v with Ok z => Some (PInt z) | Err _ => None end
  else option_map PFloat (read_float v).

(** gomill_examples/gomill-clop:87-88 [format_for_display]. *)
Definition format_for_display (v : param) : bytes := match v with PInt z => str_int z | PFloat f => show_float f end.

(** gomill_examples/gomill-clop:180-202 [interpret_clop_parameters]; [None]: CompetitionError. *)
Fixpoint interpret_loop (specs : list pspec) (args : list (bytes * bytes)) : option (list param) :=
  match specs, args with
  | s :: specs', (name, value) :: args' =>
      if negb (bytes_eqb name (ps_code s)) then None
      else match interpret_value s value with
           | None => None
           | Some v => option_map (cons v) (interpret_loop specs' args')
           end
  | _, _ => Some []
  end.
Definition interpret_clop_parameters (specs : list pspec) (args : list (bytes * bytes)) : option (list param) :=
  if negb (List.length args =? List.length specs)%nat then None else interpret_loop specs args.

(** gomill_examples/gomill-clop:204-207 [format_engine_parameters]. *)
Fixpoint format_pairs (specs : list pspec) (vs : list param) : list bytes :=
  match specs, vs with
  | s :: specs', v :: vs' => (ps_code s ++ str " " ++ format_for_display v) :: format_pairs specs' vs'
  | _, _ => []
  end.
Definition format_engine_parameters (specs : list pspec) (vs : list param) : bytes := join (str "; ") (format_pairs specs vs).

(** The game settings and special settings of the Clop_tuner. *)
Record tuner : Type := mkTuner {
  t_colour : colour;            (* candidate_colour *)
  t_parallel : Z;
  t_H : bytes;                  (* str(clop_H) *)
  t_correlations : bytes;
  t_stop_on_error : bool;
  t_specs : list pspec;
  t_opponent : P;
  t_size : Z;
  t_komi : num;
  t_limit : Z;
  t_handicap : option Z;
  t_free : bool;                (* handicap_style == 'free' *)
  t_internal : bool;            (* scorer == 'internal' *)
  t_comp : compensation
}.

(** The Clop_ringmaster. *)
Record ring : Type := mkRing {
  r_files : pathnames;          (* competition_code, base_directory and the pathnames *)
  r_record : bool;
  r_gtp_logs : bool;
  r_stderr_to_log : bool;
  r_tuner : tuner
}.

(** game_jobs.Game_job. *)
Record job : Type := mkJob {
  j_id : bytes;
  j_b : P;
  j_w : P;
  j_size : Z;
  j_komi : num;
  j_limit : Z;
  j_handicap : option Z;
  j_free : bool;
  j_internal : bool;
  j_comp : compensation;
  j_event : bytes;
  j_note : bytes;
  j_name : option bytes;
  j_sgf : option (bytes * bytes * bytes);   (* sgf_dirname, void_sgf_dirname, sgf_filename *)
  j_gtp_log : option bytes;
  j_stderr : option bytes
}.

(** game_jobs.Game_job_result. *)
Record response : Type := mkResp { rs_id : bytes; rs_warnings : list bytes; rs_entries : list bytes; rs_result : game_result }.


(** ** The world *)
Inductive call : Type :=
| ControlExists                          (* os.path.exists(ctl_pathname) *)
| LoadRingmaster                         (* Clop_ringmaster(ctl_pathname) *)
| OpenLog (pathname : bytes)             (* open(self.log_pathname, "a") *)
| MakeCandidate (vs : list param)        (* candidate_maker_fn; the answer None isn't a Player_config *)
| PlayerFromConfig (code : bytes) (c : CFG)  (* game_jobs_player_from_config *)
| WriteLog (line : bytes)                (* Ringmaster.log *)
| RunJob (j : job)
| WriteClop (pathname text : bytes)
| DirExists (pathname : bytes)
| MakeDir (pathname : bytes).
Definition answer (c : call) : Type :=
  match c with
  | ControlExists | DirExists _ => bool
  | LoadRingmaster => (bool * bool * bool * tuner)%type   (* record_games, write_gtp_logs, stderr_to_log *)
  | MakeCandidate _ => option CFG
  | PlayerFromConfig _ _ => P
  | RunJob _ => response
  | _ => unit
  end.
Inductive event : Type :=
| Called (c : call) (r : outcome (answer c))
| Said (line : bytes)          (* on standard output *)
| Complained (text : bytes).   (* on standard error *)
Definition history : Type := list event.
Definition world : Type := forall c : call, history -> outcome (answer c).

Variable w : world.
Variable traceback : exn -> bytes.     (* compact_tracebacks.format_traceback *)
Variable script : bytes.               (* os.path.abspath(__file__) *)

Definition M (A : Type) : Type := history -> history * outcome A.
Definition ret {A} (a : A) : M A := fun h => (h, Good a).
Definition raise {A} (e : exn) : M A := fun h => (h, Raise e).
Definition bind {A B} (m : M A) (f : A -> M B) : M B := fun h =>
  let '(h', r) := m h in match r with Good a => f a h' | Raise e => (h', Raise e) end.
Definition catch {A} (m : M A) (f : exn -> M A) : M A := fun h =>
  let '(h', r) := m h in match r with Good a => (h', Good a) | Raise e => f e h' end.
Definition ask (c : call) : M (answer c) := fun h => let r := w c h in (h ++ [Called c r], r).
Definition say (line : bytes) : M unit := fun h => (h ++ [Said line], Good tt).
Definition complain (line : bytes) : M unit := fun h => (h ++ [Complained line], Good tt).
Notation "'act' x <- m ; k" := (bind m (fun x => k)) (at level 200, x name, right associativity).
Notation "m ;; k" := (bind m (fun _ => k)) (at level 100, k at level 200, right associativity).
Fixpoint each {A} (l : list A) (f : A -> M unit) : M unit :=
  match l with [] => ret tt | a :: r => f a ;; each r f end.

Definition nl : bytes := [char_lf].
Definition is_exception (e : exn) : bool := match e with XKeyboard | XExit => false | _ => true end.

(** gomill_examples/gomill-clop:209-233 [make_candidate]. *)
Definition make_candidate (t : tuner) (code : bytes) (vs : list param) : M P :=
  act r <- catch (ask (MakeCandidate vs)) (fun e =>
      if is_exception e then raise (XCompetition (str "error from make_candidate()" ++ nl ++ traceback e)) else raise e) ;
  match r with
  | None => raise (XCompetition (str "make_candidate() returned something, not Player"))
  | Some c =>
      catch (ask (PlayerFromConfig code c)) (fun e =>
        if is_exception e
        then raise (XCompetition (str "bad player spec from make_candidate():" ++ nl ++ traceback e ++ nl ++
                                  str "parameters were: " ++ format_engine_parameters (t_specs t) vs))
        else raise e)
  end.

(** gomill_examples/gomill-clop:235-267 [get_game_for_parameters].  [code] is the competition's code. *)
Definition get_game_for_parameters (t : tuner) (code seed : bytes) (args : list (bytes * bytes)) : M job :=
  match interpret_clop_parameters (t_specs t) args with
  | None => raise (XCompetition (str "couldn't interpret parameters"))
  | Some vs =>
      act candidate <- make_candidate t (str "#" ++ seed) vs ;
      let '(b, wh) := match t_colour t with Black => (candidate, t_opponent t) | White => (t_opponent t, candidate) end in
      ret (mkJob seed b wh (t_size t) (t_komi t) (t_limit t) (t_handicap t) (t_free t) (t_internal t) (t_comp t)
             code (str "Candidate parameters: " ++ format_engine_parameters (t_specs t) vs) None None None None)
  end.

(** gomill_examples/gomill-clop:272-276: the pathnames. *)
Definition r_code (g : ring) : bytes := p_code (r_files g).
Definition r_base (g : ring) : bytes := p_base (r_files g).
Definition log_pathname (g : ring) : bytes := join_path (r_base g) (r_code g) ++ str ".elog".

(** ringmasters.py:558-573 [_prepare_job]. *)
Definition prepare_job (g : ring) (j : job) : job :=
  mkJob (j_id j) (j_b j) (j_w j) (j_size j) (j_komi j) (j_limit j) (j_handicap j) (j_free j) (j_internal j) (j_comp j)
    (j_event j) (j_note j) (Some (r_code g ++ str " " ++ j_id j))
    (if r_record g then Some (p_sgf_dir (r_files g), p_void_dir (r_files g), j_id j ++ str ".sgf") else j_sgf j)
    (if r_gtp_logs g then Some (join_path (p_gtplog_dir (r_files g)) (j_id j ++ str ".log")) else j_gtp_log j)
    (if r_stderr_to_log g then Some (log_pathname g) else j_stderr j).

(** ringmasters.py:336-339 [warn], with the quiet presenter. *)
Definition warn (s : bytes) : M unit := ask (WriteLog s) ;; complain s.

(** gomill_examples/gomill-clop:307-349 [run_game_for_clop]. *)
Definition play (g : ring) (seed : bytes) (args : list (bytes * bytes)) : M response :=
  act j0 <- get_game_for_parameters (r_tuner g) (r_code g) seed args ;
  let j := prepare_job g j0 in
  ask (WriteLog (str "starting game " ++ j_id j ++ str ": " ++ pcode (j_b j) ++ str " (b) vs " ++ pcode (j_w j) ++ str " (w)")) ;;
  act r <- ask (RunJob j) ;
  ask (WriteLog (str "response from game " ++ rs_id r)) ;;
  each (rs_warnings r) warn ;;
  each (rs_entries r) (fun e => ask (WriteLog e)) ;;
  ret r.
Definition run_game_for_clop (g : ring) (seed : bytes) (args : list (bytes * bytes)) : M bytes :=
  act r <- catch (play g seed args) (fun e =>
      match e with XCompetition t => raise (XRing t) | XJobFailed t => raise (XRing t) | _ => raise e end) ;
  let res := rs_result r in
  let c := t_colour (r_tuner g) in
  if match gr_winner res with Some x => colour_eqb x c | None => false end then ret (str "W")
  else if match gr_winner res with Some x => colour_eqb x (opponent_of c) | None => false end then ret (str "L")
  else if gr_jigo res then ret (str "D")
  else if t_stop_on_error (r_tuner g) then ret (str "D")
  else raise (XRing (str "unexpected game result: " ++ gr_sgf res)).

(** gomill_examples/gomill-clop:397-415 [do_run_game], 301-305 [open_logfile]. *)
Fixpoint pair_up (l : list bytes) : option (list (bytes * bytes)) :=
  match l with
  | [] => Some []
  | [_] => None
  | a :: b :: r => option_map (cons (a, b)) (pair_up r)
  end.
Definition open_logfile (g : ring) : M unit :=
  catch (ask (OpenLog (log_pathname g))) (fun e =>
    match e with XEnvironment t => raise (XRing (str "failed to open log file:" ++ nl ++ t)) | _ => raise e end).
Definition do_run_game (g : ring) (arguments : list bytes) : M unit :=
  match arguments with
  | _ :: seed :: more =>
      match pair_up more with
      | None => raise (XRing (str "parameter without value"))
      | Some args =>
          open_logfile g ;;
          act message <- run_game_for_clop g seed args ;
          say message
      end
  | _ => raise (XRing (str "not enough connection script arguments"))
  end.

(** gomill_examples/gomill-clop:285-299 [ensure_output_directories]: the handlers use a name that
    isn't defined. *)
Definition ensure_dir (p : bytes) : M unit :=
  catch (act e <- ask (DirExists p) ; if e then ret tt else ask (MakeDir p))
    (fun e => match e with XEnvironment _ => raise XName | _ => raise e end).
Definition ensure_output_directories (g : ring) : M unit :=
  (if r_record g then ensure_dir (p_sgf_dir (r_files g)) else ret tt) ;;
  (if r_gtp_logs g then ensure_dir (p_gtplog_dir (r_files g)) else ret tt).

(** [komi == int(komi)]. *)
Definition whole (k : num) : bool := fst k mod 10 ^ Z.of_nat (snd k) =? 0.

(** gomill_examples/gomill-clop:353-391: the contents of the .clop file. *)
Definition processor (i : nat) : bytes := str "Processor par" ++ str_int (Z.of_nat i).
Definition clop_lines (g : ring) (control : bytes) : list bytes :=
  let t := r_tuner g in
  [str "Name " ++ r_code g; [];
   str "Script " ++ script ++ str " " ++ control ++ str " run-game"; [];
   join nl (map format_for_clop (t_specs t)); [];
   join nl (map processor (seq 0 (Z.to_nat (t_parallel t)))); [];
   str "Replications 1"; [];
   str "DrawElo " ++ (if whole (t_komi t) || t_stop_on_error t then str "100" else str "0"); [];
   str "H " ++ t_H t; [];
   str "Correlations " ++ t_correlations t; [];
   str "StopOnError " ++ (if t_stop_on_error t then str "true" else str "false"); []; []].
(** gomill_examples/gomill-clop:372-395 [do_setup].  [control]: the basename of the control file. *)
Definition do_setup (g : ring) (control : bytes) : M unit :=
  ask (WriteClop (join_path (r_base g) (r_code g ++ str ".clop")) (join nl (clop_lines g control))) ;;
  ensure_output_directories g.

(** gomill_examples/gomill-clop:422-474 [main]: what happens, and the exit status. *)
Inductive command : Type := Setup | RunGame.
Definition find_command (s : bytes) : option command :=
  if bytes_eqb s (str "setup") then Some Setup else if bytes_eqb s (str "run-game") then Some RunGame else None.
Definition perform (control : bytes) (c : command) (arguments : list bytes) : M unit :=
  act e <- ask ControlExists ;
  if negb e then raise (XRing (str "control file " ++ control ++ str " not found"))
  else
    match competition_files control with
    | Err _ => raise (XRing (str "forbidden control file extension"))
    | Ok files =>
        act l <- ask LoadRingmaster ;
        let '(record, logs, err, t) := l in
        let g := mkRing files record logs err t in
        match c with Setup => do_setup g (snd (os_split control)) | RunGame => do_run_game g arguments end
    end.
Definition status (control : bytes) (c : command) (arguments : list bytes) : M Z :=
  catch (perform control c arguments ;; ret 0) (fun e =>
    match e with
    | XRing t => complain (str "gomill-clop: " ++ t) ;; ret 1
    | XKeyboard => ret 3
    | XInternal t => complain (str "gomill-clop: internal error" ++ nl ++ t) ;; ret 4
    | _ => complain (str "gomill-clop: internal error" ++ nl ++ traceback e) ;; ret 4
    end).
Definition main_command (control : bytes) (c : command) (arguments : list bytes) : M Z :=
  act s <- status control c arguments ;
  (if negb (s =? 0) && match c with RunGame => true | Setup => false end then say (str "Error") else ret tt) ;;
  ret s.
Definition usage_error (m : bytes) : history * Z := ([Complained (str "error: " ++ m)], 2).
Definition help_text : bytes := str "Usage: gomill-clop <control file> <command> [connection script arguments]".
Definition main (argv : list bytes) : history * Z :=
  match parse_args argv [] with
  | Help => ([Said help_text], 0)
  | BadOption => usage_error (str "no such option")
  | Args [] => usage_error (str "no control file specified")
  | Args [_] => usage_error (str "no command specified")
  | Args (control :: name :: arguments) =>
      match find_command name with
      | None => usage_error (str "no such command: " ++ name)
      | Some c =>
          if match arguments, c with _ :: _, Setup => true | _, _ => false end
          then usage_error (str "too many arguments for " ++ name)
          else match main_command control c arguments [] with
               | (h, Good s) => (h, s)
               | (h, Raise _) => (h, 1)
               end
      end
  end.
End Clop.
