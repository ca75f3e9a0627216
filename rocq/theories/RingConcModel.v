(** Model of several 'ringmaster' processes working on one competition at the same time
    (gomill/ringmaster_command_line.py, gomill/ringmasters.py): every system call that touches the
    competition's log, status or command file is a step of one process, and steps of different
    processes interleave in any way.  Simplified: fcntl is available; opening files succeeds;
    the other files of the competition are left out.  A competition's state is represented by
    the list of the games it has counted (its status is a function of those, C45 and C46). *)
From Verif Require Import Base.

(** ** The file system *)
Inductive name : Type := Log | Status | New | Cmd.   (* .log, .status, .status.new, .cmd *)
Definition name_eqb (a b : name) : bool :=
  match a, b with Log, Log => true | Status, Status => true | New, New => true | Cmd, Cmd => true | _, _ => false end.

(** An inode is told by the name it was made under and a number. *)
Definition inode : Type := name * nat.
Definition inode_eqb (a b : inode) : bool := name_eqb (fst a) (fst b) && Nat.eqb (snd a) (snd b).

(** What has been written to a file: nothing yet (or not all), "stop", or a pickled state. *)
Inductive content : Type := Cut | Stop | State (s : list Z).

(** ** Processes *)
Inductive command : Type := Run | StopCommand | Reset | Show.

(** Where a running competition is in [get_job] and [process_response]. *)
Inductive phase : Type :=
| Idle                       (* between the two *)
| Found                      (* get_job: the command file exists *)
| Reading (i : inode)        (* get_job: it has been opened *)
| Unlinking                  (* get_job: about to remove it *)
| Saving                     (* write_status: about to open the new file *)
| Dumping (i : inode)        (* write_status: about to write it *)
| Renaming.                  (* write_status: about to rename it *)

Record running : Type := mkRunning {
  r_state : list Z;
  r_log : inode;
  r_stopping : bool;
  r_games : nat;       (* games in progress *)
  r_phase : phase
}.

Inductive proc : Type :=
| Unborn
| Gone
| Checking                                 (* run: before status_file_exists *)
| Loading                                  (* run: before load_status *)
| Ready (s : list Z)                       (* run: before _open_files *)
| Opened (s : list Z) (i : inode)          (* _open_files: the log is open *)
| Locked (s : list Z) (i : inode)          (* _open_files: the lock is taken *)
| Removing (s : list Z) (i : inode)        (* _open_files: the command file exists *)
| Running (r : running)                    (* in run_jobs *)
| StopNew                                  (* stop *)
| StopOpen (i : inode)                     (* stop: the command file is open *)
| ResetLog | ResetStatus | ResetCmd        (* reset: before removing these *)
| ShowNew | ShowLoading.                   (* show *)

Record sys : Type := mkSys {
  dir : name -> option inode;
  data : inode -> content;
  lock : inode -> option nat;     (* who holds the lock on it *)
  fresh : nat;
  procs : nat -> proc
}.

Definition start : sys := mkSys (fun _ => None) (fun _ => Cut) (fun _ => None) 0 (fun _ => Unborn).

Definition set_proc (p : nat) (x : proc) (w : sys) : sys :=
  mkSys (dir w) (data w) (lock w) (fresh w) (fun q => if Nat.eqb q p then x else procs w q).
Definition set_dir (n : name) (e : option inode) (w : sys) : sys :=
  mkSys (fun m => if name_eqb m n then e else dir w m) (data w) (lock w) (fresh w) (procs w).
Definition set_data (i : inode) (c : content) (w : sys) : sys :=
  mkSys (dir w) (fun j => if inode_eqb j i then c else data w j) (lock w) (fresh w) (procs w).
Definition take_lock (p : nat) (i : inode) (w : sys) : sys :=
  mkSys (dir w) (data w) (fun j => if inode_eqb j i then Some p else lock w j) (fresh w) (procs w).
(** Closing a process's files, or its end, releases its locks. *)
Definition release (p : nat) (w : sys) : sys :=
  mkSys (dir w) (data w) (fun j => match lock w j with Some q => if Nat.eqb q p then None else Some q | None => None end) (fresh w) (procs w).

(** open(..., "a") and open(..., "w"). *)
Definition open_append (n : name) (w : sys) : inode * sys :=
  match dir w n with
  | Some i => (i, w)
  | None => let i := (n, fresh w) in
            (i, mkSys (fun m => if name_eqb m n then Some i else dir w m) (fun j => if inode_eqb j i then Cut else data w j) (lock w) (S (fresh w)) (procs w))
  end.
Definition open_write (n : name) (w : sys) : inode * sys :=
  let '(i, w') := open_append n w in (i, set_data i Cut w').

(** ** Steps *)
Inductive label : Type :=
| Begin (c : command)
| Loaded (s : list Z)      (* run: the state has been loaded, or there is none *)
| LogOpened
| Acquired                 (* run: got the lock *)
| Refused                  (* run: "competition is already running" *)
| Go                       (* run: an earlier command file has been removed *)
| Started                  (* run: a game starts *)
| Halted                   (* run: "stop command received" *)
| Counted (g : Z)          (* run: the result of a game is taken into account *)
| Wrote (s : list Z)       (* run: the state has been saved *)
| Ended                    (* the process ended, normally, with an error, or by a crash *)
| StopOpened
| StopWritten
| LogRemoved
| StatusRemoved
| CmdRemoved
| Shown (s : list Z)       (* show: the state that is reported *)
| Tau.

(** What happens is up to the scheduler, the competition, and the engines. *)
Inductive choice : Type :=
| CBegin (c : command)
| CNext (game : bool)      (* the next system call; [game]: a game is available *)
| CReply (g : Z)           (* a game's result arrives *)
| CVoid                    (* a game fails *)
| CFinish                  (* no more jobs *)
| CCrash.

Definition end_proc (p : nat) (w : sys) : option (label * sys) := Some (Ended, set_proc p Gone (release p w)).

(** ringmasters.py:609-627, the rest of [_get_job]. *)
Definition start_game (p : nat) (r : running) (game : bool) (w : sys) : option (label * sys) :=
  if game then Some (Started, set_proc p (Running (mkRunning (r_state r) (r_log r) (r_stopping r) (S (r_games r)) Idle)) w)
  else Some (Tau, set_proc p (Running (mkRunning (r_state r) (r_log r) (r_stopping r) (r_games r) Idle)) w).
Definition go_phase (p : nat) (r : running) (ph : phase) (w : sys) : sys :=
  set_proc p (Running (mkRunning (r_state r) (r_log r) (r_stopping r) (r_games r) ph)) w.

Definition act (w : sys) (p : nat) (c : choice) : option (label * sys) :=
  match procs w p, c with
  | Unborn, CBegin Run => Some (Begin Run, set_proc p Checking w)
  | Unborn, CBegin StopCommand => Some (Begin StopCommand, set_proc p StopNew w)
  | Unborn, CBegin Reset => Some (Begin Reset, set_proc p ResetLog w)
  | Unborn, CBegin Show => Some (Begin Show, set_proc p ShowNew w)
  | Unborn, _ => None
  | Gone, _ => None
  | _, CCrash => end_proc p w

  (* ringmaster_command_line.py:14-30 [do_run]: status_file_exists, load_status or set_clean_status *)
  | Checking, CNext _ =>
      match dir w Status with
      | None => Some (Loaded [], set_proc p (Ready []) w)
      | Some _ => Some (Tau, set_proc p Loading w)
      end
  (* ringmasters.py:406-427; opening and reading the status file is one step *)
  | Loading, CNext _ =>
      match dir w Status with
      | None => end_proc p w
      | Some i => match data w i with
                  | State s => Some (Loaded s, set_proc p (Ready s) w)
                  | _ => end_proc p w
                  end
      end
  (* ringmasters.py:254-279 [_open_files] *)
  | Ready s, CNext _ => let '(i, w') := open_append Log w in Some (LogOpened, set_proc p (Opened s i) w')
  | Opened s i, CNext _ =>
      match lock w i with
      | None => Some (Acquired, set_proc p (Locked s i) (take_lock p i w))
      | Some _ => Some (Refused, set_proc p Gone w)
      end
  | Locked s i, CNext _ =>
      match dir w Cmd with
      | None => Some (Go, set_proc p (Running (mkRunning s i false 0 Idle)) w)
      | Some _ => Some (Tau, set_proc p (Removing s i) w)
      end
  | Removing s i, CNext _ =>
      match dir w Cmd with
      | None => end_proc p w
      | Some _ => Some (Go, set_proc p (Running (mkRunning s i false 0 Idle)) (set_dir Cmd None w))
      end

  | Running r, _ =>
      match r_phase r, c with
      (* ringmasters.py:585-607 [_get_job] *)
      | Idle, CNext game =>
          if r_stopping r then Some (Tau, w)
          else match dir w Cmd with
               | None => start_game p r game w
               | Some _ => Some (Tau, go_phase p r Found w)
               end
      | Found, CNext game =>
          match dir w Cmd with
          | None => start_game p r game w
          | Some i => Some (Tau, go_phase p r (Reading i) w)
          end
      | Reading i, CNext game =>
          match data w i with
          | Stop => Some (Halted, set_proc p (Running (mkRunning (r_state r) (r_log r) true (r_games r) Unlinking)) w)
          | _ => start_game p r game w
          end
      | Unlinking, CNext _ => Some (Tau, go_phase p r Idle (set_dir Cmd None w))
      (* ringmasters.py:629-644 [process_response], 646-665 [process_error_response] *)
      | Idle, CReply g =>
          match r_games r with
          | O => None
          | S k => Some (Counted g, set_proc p (Running (mkRunning (r_state r ++ [g]) (r_log r) (r_stopping r) k Saving)) w)
          end
      | Idle, CVoid =>
          match r_games r with
          | O => None
          | S k => Some (Tau, set_proc p (Running (mkRunning (r_state r) (r_log r) (r_stopping r) k Saving)) w)
          end
      (* ringmasters.py:722-724: the end of [run], and closing the files *)
      | Idle, CFinish => match r_games r with O => end_proc p w | S _ => None end
      (* ringmasters.py:383-388 [_write_status] *)
      | Saving, CNext _ => let '(i, w') := open_write New w in Some (Tau, go_phase p r (Dumping i) w')
      | Dumping i, CNext _ => Some (Tau, go_phase p r Renaming (set_data i (State (r_state r)) w))
      | Renaming, CNext _ =>
          match dir w New with
          | None => end_proc p w
          | Some i => Some (Wrote (r_state r), go_phase p r Idle (set_dir New None (set_dir Status (Some i) w)))
          end
      | _, _ => None
      end

  (* ringmasters.py:462-476 [write_command] *)
  | StopNew, CNext _ => let '(i, w') := open_write Cmd w in Some (StopOpened, set_proc p (StopOpen i) w')
  | StopOpen i, CNext _ => Some (StopWritten, set_proc p Gone (set_data i Stop w))

  (* ringmasters.py:730-747 [delete_state_and_output] *)
  | ResetLog, CNext _ => Some (LogRemoved, set_proc p ResetStatus (set_dir Log None w))
  | ResetStatus, CNext _ => Some (StatusRemoved, set_proc p ResetCmd (set_dir Status None w))
  | ResetCmd, CNext _ => Some (CmdRemoved, set_proc p Gone (set_dir Cmd None w))

  (* ringmaster_command_line.py:35-39 [do_show] *)
  | ShowNew, CNext _ =>
      match dir w Status with
      | None => end_proc p w
      | Some _ => Some (Tau, set_proc p ShowLoading w)
      end
  | ShowLoading, CNext _ =>
      match dir w Status with
      | None => end_proc p w
      | Some i => match data w i with
                  | State s => Some (Shown s, set_proc p Gone w)
                  | _ => end_proc p w
                  end
      end
  | _, _ => None
  end.

(** Running a schedule from a state; the history is kept latest event first. *)
Definition event : Type := nat * label.
Fixpoint exec (w : sys) (h : list event) (sched : list (nat * choice)) : option (sys * list event) :=
  match sched with
  | [] => Some (w, h)
  | (p, c) :: rest =>
      match act w p c with
      | None => None
      | Some (l, w') => exec w' ((p, l) :: h) rest
      end
  end.
