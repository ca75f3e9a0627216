(** What the connection script for CLOP is to do (C78), apart from the code. *)
From Coq Require Import QArith.
From Verif Require Import Base Bytes PyStr GameplayModel TournModel SettingsModel RingFilesModel ClopModel.
Open Scope Z_scope.

(** An argument that optparse doesn't take for an option. *)
Definition plain (a : bytes) : Prop := forall c r, a <> "-"%char :: c :: r.

(** A number that's a whole number. *)
Definition integral (x : pyfloat) : Prop := exists q z, x = FNum q /\ (q == inject_Z z)%Q.

Section ClopSpec.
Context {F P CFG : Type}.
Notation event := (@event F P CFG).
Notation tuner := (@tuner P).
Notation job := (@job P).
Notation param := (@param F).

(** The lines printed on standard output. *)
Fixpoint printed (h : list event) : list bytes :=
  match h with
  | [] => []
  | Said l :: r => l :: printed r
  | _ :: r => printed r
  end.

(** The games run. *)
Fixpoint games (h : list event) : list job :=
  match h with
  | [] => []
  | Called (RunJob j) _ :: r => j :: games r
  | _ :: r => games r
  end.

(** What CLOP is to be told of a result, when the candidate plays [c]. *)
Definition verdict (c : colour) (stop_on_error : bool) (r : game_result) (m : bytes) : Prop :=
  (gr_winner r = Some c /\ m = str "W") \/
  (gr_winner r = Some (opponent_of c) /\ m = str "L") \/
  (gr_winner r = None /\ (gr_jigo r = true \/ stop_on_error = true) /\ m = str "D").

(** The text [v] is read as the parameter [x]. *)
Definition reads (read_float : bytes -> option F) (s : pspec) (a : bytes * bytes) (x : param) : Prop :=
  fst a = ps_code s /\
  (if ps_integer s then exists z, py_int (snd a) = Ok z /\ x = PInt z
   else exists f, read_float (snd a) = Some f /\ x = PFloat f).

(** The arguments are names and values in turn. *)
Inductive in_pairs : list bytes -> list (bytes * bytes) -> Prop :=
| no_pair : in_pairs [] []
| next_pair n v l r : in_pairs l r -> in_pairs (n :: v :: l) ((n, v) :: r).

(** [j] is a game between [candidate] and the opponent with the settings of the control file. *)
Definition right_game (t : tuner) (seed : bytes) (candidate : P) (j : job) : Prop :=
  j_id j = seed /\
  (t_colour t = Black -> j_b j = candidate /\ j_w j = t_opponent t) /\
  (t_colour t = White -> j_w j = candidate /\ j_b j = t_opponent t) /\
  j_size j = t_size t /\ j_komi j = t_komi t /\ j_limit j = t_limit t /\ j_handicap j = t_handicap t /\
  j_free j = t_free t /\ j_internal j = t_internal t /\ j_comp j = t_comp t.

(** Where the files of a game go. *)
Definition right_files (files : pathnames) (record logs err : bool) (seed : bytes) (j : job) : Prop :=
  j_sgf j = (if record then Some (p_sgf_dir files, p_void_dir files, seed ++ str ".sgf") else None) /\
  j_gtp_log j = (if logs then Some (join_path (p_gtplog_dir files) (seed ++ str ".log")) else None) /\
  j_stderr j = (if err then Some (join_path (p_base files) (p_code files) ++ str ".elog") else None).

(** [j] is the game asked for: [args] are the names and values of the parameters. *)
Definition candidate_game (read_float : bytes -> option F) (t : tuner) (files : pathnames) (record logs err : bool)
    (seed : bytes) (args : list (bytes * bytes)) (h : list event) (j : job) : Prop :=
  exists av cfg p,
    Forall2 (fun s ax => reads read_float s (fst ax) (snd ax)) (t_specs t) av /\ args = map fst av /\
    In (Called (MakeCandidate (map snd av)) (Good (Some cfg))) h /\
    In (Called (PlayerFromConfig (str "#" ++ seed) cfg) (Good p)) h /\
    right_game t seed p j /\ right_files files record logs err seed j.

(** Why a run in which no call raises an exception still fails. *)
Definition no_good (read_float : bytes -> option F) (control : bytes) (arguments : list bytes) (h : list event) : Prop :=
  In (Called ControlExists (Good false)) h \/
  In (snd (splitext (snd (os_split control)))) forbidden \/
  (List.length arguments < 2)%nat \/
  (forall args, ~ in_pairs (skipn 2 arguments) args) \/
  exists record logs err t, In (Called LoadRingmaster (Good (record, logs, err, t))) h /\
    ((exists args, in_pairs (skipn 2 arguments) args /\
        ~ exists av, Forall2 (fun s ax => reads read_float s (fst ax) (snd ax)) (t_specs t) av /\ args = map fst av) \/
     (exists vs, In (Called (MakeCandidate vs) (Good None)) h) \/
     (exists j r, In (Called (RunJob j) (Good r)) h /\ t_stop_on_error t = false /\
        gr_winner (rs_result r) = None /\ gr_jigo (rs_result r) = false)).

(** The exit status if a call raises an exception. *)
Definition expected (c : @call F P CFG) (e : exn) : Z :=
  match e with
  | XKeyboard => 3
  | XRing _ => 1
  | XCompetition _ | XJobFailed _ =>
      match c with MakeCandidate _ | PlayerFromConfig _ _ | WriteLog _ | RunJob _ => 1 | _ => 4 end
  | XEnvironment _ => match c with MakeCandidate _ | PlayerFromConfig _ _ | OpenLog _ => 1 | _ => 4 end
  | XExit => 4
  | _ => match c with MakeCandidate _ | PlayerFromConfig _ _ => 1 | _ => 4 end
  end.
End ClopSpec.

(** ** The .clop file *)
Definition lf_free (s : bytes) : Prop := ~ In "010"%char s.
(** The line of a parameter. *)
Definition parameter_line (percent_f percent_d : pyfloat -> bytes) (s : pspec) : bytes :=
  ps_type s ++ str " " ++ ps_code s ++ str " " ++
  (if ps_integer s then percent_d (ps_min s) ++ str " " ++ percent_d (ps_max s)
   else percent_f (ps_min s) ++ str " " ++ percent_f (ps_max s)).
(** The lines of the file.  If there are no processors, there's an empty line. *)
Definition clop_file {P : Type} (percent_f percent_d : pyfloat -> bytes) (script control code : bytes) (t : @tuner P) (processors : list bytes) (drawelo : bytes) : list bytes :=
  [str "Name " ++ code; []; str "Script " ++ script ++ str " " ++ control ++ str " run-game"; []] ++
  map (parameter_line percent_f percent_d) (t_specs t) ++ [[]] ++
  match processors with [] => [[]] | _ => processors end ++
  [[]; str "Replications 1"; []; str "DrawElo " ++ drawelo; []; str "H " ++ t_H t; [];
   str "Correlations " ++ t_correlations t; []; str "StopOnError " ++ str (if t_stop_on_error t then "true" else "false"); []; []].
