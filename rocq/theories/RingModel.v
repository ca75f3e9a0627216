(** Model of gomill/ringmasters.py:374-665, the Ringmaster as a job source: what it keeps
    about games, and the status file. *)
From Verif Require Import Base Bytes Dict JobModel.

(** ringmasters.py:28-34. *)
Definition RingmasterError : exn := OtherError 121.
Definition RingmasterInternalError : exn := OtherError 122.

(** The methods of a Competition the ringmaster uses (competitions.py:244-400): [CF] control
    files, [C] the competition's state, [ST] what get_status returns (pickled), [J] Game_jobs,
    [R] Game_job_results. *)
Record competition (CF C ST J R : Type) : Type := mkComp {
  c_clean : CF -> res C;                                  (* set_clean_status *)
  c_load : CF -> ST -> res C;                             (* set_status *)
  c_status : C -> ST;                                     (* get_status *)
  c_get : C -> C * res (option J);                        (* get_game; None: NoGameAvailable *)
  c_result : R -> C -> C * res unit;                      (* process_game_result *)
  c_error : J -> Z -> C -> C * res (bool * bool);         (* process_game_error: stop, retry *)
  c_report : C -> C                                       (* write_screen_report *)
}.
Arguments c_clean {CF C ST J R}. Arguments c_load {CF C ST J R}. Arguments c_status {CF C ST J R}.
Arguments c_get {CF C ST J R}. Arguments c_result {CF C ST J R}. Arguments c_error {CF C ST J R}.
Arguments c_report {CF C ST J R}.

Section Ring.
Context {CF C ST J R : Type}.
Variable comp : competition CF C ST J R.
Variable job_id : J -> bytes.
Variable response_id : R -> bytes.

(** ringmasters.py:104-125 and 374-378: the attributes. *)
Record ring : Type := mkRing {
  r_comp : C;
  r_void : Z;                     (* void_game_count *)
  r_prog : dict J;                (* games_in_progress *)
  r_replay : dict J;              (* games_to_replay *)
  r_errors : dict Z;              (* game_error_counts *)
  r_stopping : bool;
  r_max : option Z                (* max_games_this_run *)
}.

(** A file: completely written, or only partly. *)
Inductive file : Type := FComplete (void : Z) (st : ST) | FPartial.
(** The status file and the file with '.new' appended to its name. *)
Record disk : Type := mkDisk { d_status : option file; d_new : option file }.

(** ringmasters.py:380-400 [_write_status], [write_status]: the disk after opening the new
    file, after writing it, and after renaming it (which is atomic).  [fail]: the operating
    system refuses the operation with this number. *)
Definition write_status (fail : option nat) (g : ring) (d : disk) : list disk * res unit :=
  let f := FComplete (r_void g) (c_status comp (r_comp g)) in
  let d1 := mkDisk (d_status d) (Some FPartial) in
  let d2 := mkDisk (d_status d) (Some f) in
  let d3 := mkDisk (Some f) None in
  match fail with
  | Some O => ([], Err RingmasterError)
  | Some (S O) => ([d1], Err RingmasterError)
  | Some (S (S O)) => ([d1; d2], Err RingmasterError)
  | _ => ([d1; d2; d3], Ok tt)
  end.

(** ringmasters.py:518-553 [_update_display]: writes a report if there is a display. *)
Definition with_comp (c : C) (g : ring) : ring :=
  mkRing c (r_void g) (r_prog g) (r_replay g) (r_errors g) (r_stopping g) (r_max g).
Definition update_display (display : bool) (g : ring) : ring :=
  if display then with_comp (c_report comp (r_comp g)) g else g.

(** ringmaster_command_line.py:14-32 [do_run] with ringmasters.py:402-450 [load_status],
    [set_clean_status], [status_file_exists] and the start of [run] (:667-700); the version
    numbers in the status file aren't modelled, nor the players' startup checks. *)
Definition start (cf : CF) (max_games : option Z) (display : bool) (d : disk) : res ring :=
  match d_status d with
  | Some (FComplete void st) =>
      match c_load comp cf st with
      | Ok c => Ok (update_display display (mkRing c void [] [] [] false max_games))
      | Err _ => Err RingmasterError
      end
  | Some FPartial => Err RingmasterError
  | None =>
      match c_clean comp cf with
      | Ok c => Ok (update_display display (mkRing c 0 [] [] [] false max_games))
      | Err _ => Err RingmasterError
      end
  end.

(** What _get_job finds outside: a stop requested at the terminal; a command file containing
    "stop"; which item [popitem] takes; and whether the display is on. *)
Record ginput : Type := mkGI { gi_terminal : bool; gi_file : bool; gi_which : nat; gi_display : bool }.

Definition halt (g : ring) : ring :=
  mkRing (r_comp g) (r_void g) (r_prog g) (r_replay g) (r_errors g) true (r_max g).
Definition with_games (prog replay : dict J) (g : ring) : ring :=
  mkRing (r_comp g) (r_void g) prog replay (r_errors g) (r_stopping g) (r_max g).

(** ringmasters.py:570-612 [_get_job]. *)
Definition get_job_ (i : ginput) (g : ring) : ring * res (option J) :=
  if r_stopping g then (g, Ok None)
  else if gi_terminal i then (halt g, Ok None)
  else if gi_file i then (halt g, Ok None)
  else if match r_max g with Some m => m =? 0 | None => false end then (halt g, Ok None)
  else
    let g1 := mkRing (r_comp g) (r_void g) (r_prog g) (r_replay g) (r_errors g) (r_stopping g)
                     (match r_max g with Some m => Some (m - 1) | None => None end) in
    match r_replay g1 with
    | kv :: _ =>
        let (k, j) := nth (gi_which i) (r_replay g1) kv in
        (with_games (dset (job_id j) j (r_prog g1)) (ddel k (r_replay g1)) g1, Ok (Some j))
    | [] =>
        match c_get comp (r_comp g1) with
        | (c, Err e) => (with_comp c g1, Err e)
        | (c, Ok None) => (with_comp c g1, Ok None)
        | (c, Ok (Some j)) =>
            let g2 := with_comp c g1 in
            if dmem (job_id j) (r_prog g2) then (g2, Err RingmasterInternalError)
            else (with_games (dset (job_id j) j (r_prog g2)) (r_replay g2) g2, Ok (Some j))
        end
    end.

(** ringmasters.py:575-579 [get_job]: the display is updated afterwards. *)
Definition get_job (i : ginput) (g : ring) : ring * res (option J) :=
  match get_job_ i g with
  | (g', Ok x) => (update_display (gi_display i) g', Ok x)
  | (g', Err e) => (g', Err e)
  end.

(** ringmasters.py:614-630 [process_response]: the ringmaster afterwards, the disk's states. *)
Definition process_response (fail : option nat) (r : R) (g : ring) (d : disk) : ring * list disk * res unit :=
  match c_result comp r (r_comp g) with
  | (c, Err e) => (with_comp c g, [], Err e)
  | (c, Ok _) =>
      let g1 := with_comp c g in
      if dmem (response_id r) (r_prog g1) then
        let g2 := with_games (ddel (response_id r) (r_prog g1)) (r_replay g1) g1 in
        let (ds, x) := write_status fail g2 d in (g2, ds, x)
      else (g1, [], Err KeyError)
  end.

(** ringmasters.py:632-657 [process_error_response]. *)
Definition process_error_response (fail : option nat) (j : J) (g : ring) (d : disk) : ring * list disk * res unit :=
  let id := job_id j in
  let g1 := mkRing (r_comp g) (r_void g + 1) (r_prog g) (r_replay g) (r_errors g) (r_stopping g) (r_max g) in
  let prev := match dget id (r_errors g1) with Some n => n | None => 0 end in
  match c_error comp j prev (r_comp g1) with
  | (c, Err e) => (with_comp c g1, [], Err e)
  | (c, Ok (stop, retry)) =>
      let g2 := with_comp c g1 in
      match dget id (r_prog g2) with
      | None => (g2, [], Err KeyError)
      | Some j' =>
          let g3 :=
            if retry && negb stop then
              mkRing (r_comp g2) (r_void g2) (ddel id (r_prog g2)) (dset id j' (r_replay g2))
                     (dset id (prev + 1) (r_errors g2)) (r_stopping g2) (r_max g2)
            else
              mkRing (r_comp g2) (r_void g2) (ddel id (r_prog g2)) (r_replay g2)
                     (if prev =? 0 then r_errors g2 else ddel id (r_errors g2)) (r_stopping g2) (r_max g2) in
          match write_status fail g3 d with
          | (ds, Err e) => (g3, ds, Err e)
          | (ds, Ok _) => (if stop && negb (r_stopping g3) then halt g3 else g3, ds, Ok tt)
          end
      end
  end.

(** The ringmaster as a job source for the job manager (ringmasters.py:700-706). *)
Definition ring_source : source J R (ring * disk) := {|
  s_get := fun s x s' => exists i, get_job i (fst s) = (fst s', x) /\ snd s' = snd s;
  s_response := fun r s x s' => exists f ds, process_response f r (fst s) (snd s) = (fst s', ds, x) /\ snd s' = last ds (snd s);
  s_error := fun j _ s x s' => exists f ds, process_error_response f j (fst s) (snd s) = (fst s', ds, x) /\ snd s' = last ds (snd s)
|}.

(** ringmasters.py:700-706: the exceptions that are passed on. *)
Definition ring_passed (competition_error : exn -> bool) (e : exn) : bool :=
  match e with
  | OtherError n => Nat.eqb n 121 || Nat.eqb n 122 || competition_error e
  | _ => competition_error e
  end.

End Ring.
Arguments ring : clear implicits.
Arguments file : clear implicits.
Arguments disk : clear implicits.
