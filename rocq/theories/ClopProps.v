(** C78: the connection script for CLOP (gomill_examples/gomill-clop). *)
From Coq Require Import QArith.
From Verif Require Import Base Bytes PyStr GameplayModel TournModel GameplaySpec SettingsModel RingFilesModel ClopModel ClopSpec ClopProofs DiagramProofs.
Open Scope Z_scope.

Section C78.
Context {F P CFG : Type}.
Variable pcode : P -> bytes.
Variable read_float : bytes -> option F.
Variable show_float : F -> bytes.
Variable percent_f percent_d : pyfloat -> bytes.
Variable w : @world F P CFG.
Variable traceback : exn -> bytes.
Variable script : bytes.
Notation clop := (main pcode read_float show_float percent_f percent_d w traceback script).

Lemma clop_run argv control arguments : parse_args argv [] = Args (control :: str "run-game" :: arguments) ->
  clop argv = match main_command pcode read_float show_float percent_f percent_d w traceback script control RunGame arguments [] with (h, Good s) => (h, s) | (h, Raise _) => (h, 1) end.
Proof. intros E. unfold main. rewrite E. change (find_command (str "run-game")) with (Some RunGame). destruct arguments; reflexivity. Qed.
Lemma clop_setup argv control : parse_args argv [] = Args [control; str "setup"] ->
  clop argv = match main_command pcode read_float show_float percent_f percent_d w traceback script control Setup [] [] with (h, Good s) => (h, s) | (h, Raise _) => (h, 1) end.
Proof. intros E. unfold main. rewrite E. reflexivity. Qed.

(** Whatever happens, 'run-game' prints one line.  It's W, D or L, and the status is 0; or
    it's Error, and the status isn't. *)
Theorem C78_one_line : forall argv control arguments h s,
  parse_args argv [] = Args (control :: str "run-game" :: arguments) -> clop argv = (h, s) ->
  (s = 0 /\ (printed h = [str "W"] \/ printed h = [str "L"] \/ printed h = [str "D"])) \/
  ((s = 1 \/ s = 3 \/ s = 4) /\ printed h = [str "Error"]).
Proof.
  intros argv control arguments h s PA E. rewrite (clop_run _ _ _ PA) in E.
  destruct (run_command pcode read_float show_float percent_f percent_d w traceback script control arguments) as (h' & s' & E' & _ & C). rewrite E' in E.
  assert (h' = h /\ s' = s) as [-> ->] by (split; congruence).
  destruct C as [(S0 & record & logs & err & t & files & proc & seed & more & args & j & r & m & _ & _ & _ & _ & _ & _ & _ & V & PR)|(S1 & PR & _)]; [left|right; auto].
  split; [exact S0|]. destruct V as [(_ & ->)|[(_ & ->)|(_ & _ & ->)]]; auto.
Qed.

(** The line tells who won the game that was asked for: if the status is 0, exactly one game
    was run, that between the opponent and the player which make_candidate made for the
    parameters on the command line, the candidate with its colour and all with the settings
    of the control file; and the line is the verdict on its result. *)
Theorem C78_answer : forall argv control arguments h,
  parse_args argv [] = Args (control :: str "run-game" :: arguments) -> clop argv = (h, 0) ->
  exists record logs err t files proc seed more args j r m,
    arguments = proc :: seed :: more /\ in_pairs more args /\ competition_files control = Ok files /\
    In (Called LoadRingmaster (Good (record, logs, err, t))) h /\
    games h = [j] /\ candidate_game read_float t files record logs err seed args h j /\
    In (Called (RunJob j) (Good r)) h /\ verdict (t_colour t) (t_stop_on_error t) (rs_result r) m /\ printed h = [m].
Proof.
  intros argv control arguments h PA E. rewrite (clop_run _ _ _ PA) in E.
  destruct (run_command pcode read_float show_float percent_f percent_d w traceback script control arguments) as (h' & s' & E' & _ & C). rewrite E' in E.
  assert (h' = h /\ s' = 0) as [-> ->] by (split; congruence).
  destruct C as [[_ C]|([X|[X|X]] & _)]; [exact C|discriminate|discriminate|discriminate].
Qed.

(** And even if it fails later, no other game was run. *)
Theorem C78_games : forall argv control arguments h s,
  parse_args argv [] = Args (control :: str "run-game" :: arguments) -> clop argv = (h, s) ->
  games h = [] \/
  exists record logs err t files proc seed more args j,
    arguments = proc :: seed :: more /\ in_pairs more args /\ competition_files control = Ok files /\
    In (Called LoadRingmaster (Good (record, logs, err, t))) h /\
    games h = [j] /\ candidate_game read_float t files record logs err seed args h j.
Proof.
  intros argv control arguments h s PA E. rewrite (clop_run _ _ _ PA) in E.
  destruct (run_command pcode read_float show_float percent_f percent_d w traceback script control arguments) as (h' & s' & E' & _ & C). rewrite E' in E.
  assert (h' = h /\ s' = s) as [-> ->] by (split; congruence).
  destruct C as [(_ & record & logs & err & t & files & proc & seed & more & args & j & r & m & C1 & C2 & C3 & C4 & C5 & C6 & _)|(_ & _ & C & _)]; [|exact C].
  right. exists record, logs, err, t, files, proc, seed, more, args, j. auto 8.
Qed.

(** If a call raises an exception the status is the one for that call and exception; if none
    does, it's 0 unless one of the reasons of [no_good] applies, and then it's 1. *)
Theorem C78_status : forall argv control arguments h s,
  parse_args argv [] = Args (control :: str "run-game" :: arguments) -> clop argv = (h, s) ->
  (forall c e, In (Called c (Raise e)) h -> s = expected c e) /\
  ((forall c e, ~ In (Called c (Raise e)) h) -> s = 0 \/ (s = 1 /\ no_good read_float control arguments h)).
Proof.
  intros argv control arguments h s PA E. rewrite (clop_run _ _ _ PA) in E.
  destruct (run_command pcode read_float show_float percent_f percent_d w traceback script control arguments) as (h' & s' & E' & T & C). rewrite E' in E.
  assert (h' = h /\ s' = s) as [-> ->] by (split; congruence). split; [exact T|].
  intros N. destruct C as [[S0 _]|(_ & _ & _ & [(c & e & R)|C])]; [left; exact S0|destruct (N _ _ R)|right; exact C].
Qed.

(** 'setup' prints nothing and runs no game; if the status is 0, then the file was written and
    the directories that are needed are there. *)
Theorem C78_setup : forall argv control h s, parse_args argv [] = Args [control; str "setup"] -> clop argv = (h, s) ->
  printed h = [] /\ games h = [] /\
  (forall c e, In (Called c (Raise e)) h -> s = expected c e) /\
  ((forall c e, ~ In (Called c (Raise e)) h) -> s = 0 \/ (s = 1 /\ (In (Called ControlExists (Good false)) h \/ In (snd (splitext (snd (os_split control)))) forbidden))) /\
  (s = 0 -> exists record logs err t files text, competition_files control = Ok files /\ In (Called LoadRingmaster (Good (record, logs, err, t))) h /\
     In (Called (WriteClop (join_path (p_base files) (p_code files ++ str ".clop")) text) (Good tt)) h /\
     (record = true -> In (Called (DirExists (p_sgf_dir files)) (Good true)) h \/ In (Called (MakeDir (p_sgf_dir files)) (Good tt)) h) /\
     (logs = true -> In (Called (DirExists (p_gtplog_dir files)) (Good true)) h \/ In (Called (MakeDir (p_gtplog_dir files)) (Good tt)) h) /\
     (t_specs t <> [] -> forall drawelo,
       drawelo = str (if t_stop_on_error t then "100" else if fst (t_komi t) mod 10 ^ Z.of_nat (snd (t_komi t)) =? 0 then "100" else "0") ->
       let lines := clop_file percent_f percent_d script (snd (os_split control)) (p_code files) t
                      (map (fun i => str "Processor par" ++ str_int (Z.of_nat i)) (seq 0 (Z.to_nat (t_parallel t)))) drawelo in
       Forall lf_free lines -> split_on "010"%char text = lines)).
Proof.
  intros argv control h s PA E. rewrite (clop_setup _ _ PA) in E.
  destruct (setup_command pcode read_float show_float percent_f percent_d w traceback script control) as (h' & s' & E' & PR & GA & T & C). rewrite E' in E.
  assert (h' = h /\ s' = s) as [-> ->] by (split; congruence). split; [exact PR|]. split; [exact GA|]. split; [exact T|]. split.
  - intros N. destruct C as [[S0 _]|(_ & [(c & e & R)|C])]; [left; exact S0|destruct (N _ _ R)|right; exact C].
  - intros ->. destruct C as [(_ & record & logs & err & t & files & C1 & C2 & C3 & C4 & C5)|([X|[X|X]] & _)]; try discriminate.
    exists record, logs, err, t, files. eexists. split; [exact C1|]. split; [exact C2|]. split; [exact C3|]. split; [exact C4|]. split; [exact C5|].
    intros NE drawelo ED lines NL.
    assert (JN : forall (a l b : list bytes), l <> [] -> join nl (a ++ join nl l :: b) = join nl (a ++ l ++ b)).
    { intros a l b NL'. assert (B0 : join nl (join nl l :: b) = join nl (l ++ b)).
      { destruct l as [|x l]; [congruence|]. clear NL'. revert x. induction l as [|y l IH]; intros x; [reflexivity|].
        change (join nl (x :: y :: l)) with (x ++ nl ++ join nl (y :: l)). cbn [app]. change (join nl (x :: y :: l ++ b)) with (x ++ nl ++ join nl (y :: l ++ b)).
        specialize (IH y). cbn [app] in IH. rewrite <- IH. destruct b as [|z b]; [reflexivity|].
        change (join nl ((x ++ nl ++ join nl (y :: l)) :: z :: b)) with ((x ++ nl ++ join nl (y :: l)) ++ nl ++ join nl (z :: b)).
        change (join nl (join nl (y :: l) :: z :: b)) with (join nl (y :: l) ++ nl ++ join nl (z :: b)). rewrite <- !app_assoc. reflexivity. }
      induction a as [|x a IH]; [exact B0|]. cbn [app]. assert (forall q, q <> [] -> join nl (x :: q) = x ++ nl ++ join nl q) as J by (intros [|q1 q] Nq; [congruence|reflexivity]).
      rewrite !J; [rewrite IH; reflexivity| |]; intros X; apply app_eq_nil in X; destruct X as [_ X]; [apply app_eq_nil in X; destruct X; congruence|discriminate]. }
    match goal with |- split_on _ ?x = _ => assert (x = join nl lines) as -> end.
    2:{ apply split_on_join; [unfold lines, clop_file; discriminate|]. exact NL. }
    subst lines drawelo. unfold clop_lines, clop_file. cbn [r_tuner r_code p_code r_files].
    change (map (format_for_clop percent_f percent_d) (t_specs t)) with (map (fun s => format_for_clop percent_f percent_d s) (t_specs t)).
    rewrite (map_ext (fun s => format_for_clop percent_f percent_d s) (parameter_line percent_f percent_d)).
    2:{ intros x. unfold format_for_clop, parameter_line. destruct (ps_integer x); reflexivity. }
    match goal with |- join nl (?a :: ?b :: ?c :: ?d :: join nl ?l :: ?r) = _ =>
      change (join nl ([a; b; c; d] ++ join nl l :: r) = join nl (clop_file percent_f percent_d script (snd (os_split control)) (p_code files) t
        (map processor (seq 0 (Z.to_nat (t_parallel t)))) (str (if t_stop_on_error t then "100" else if fst (t_komi t) mod 10 ^ Z.of_nat (snd (t_komi t)) =? 0 then "100" else "0")))) end.
    rewrite JN by (destruct (t_specs t); [congruence|discriminate]). unfold clop_file.
    set (ps := map processor (seq 0 (Z.to_nat (t_parallel t)))).
    assert (JP : forall a b, join nl (a ++ join nl ps :: b) = join nl (a ++ match ps with [] => [[]] | _ => ps end ++ b)).
    { intros a b. destruct ps as [|p0 ps']; [reflexivity|]. apply JN. discriminate. }
    match goal with |- join nl (?A ++ ?B ++ [] :: ?X :: ?r) = _ => change (join nl (A ++ B ++ [[]] ++ X :: r) = join nl (A ++ B ++ [[]] ++ match ps with [] => [[]] | _ => ps end ++
      [[]; str "Replications 1"; []; str "DrawElo " ++ str (if t_stop_on_error t then "100" else if fst (t_komi t) mod 10 ^ Z.of_nat (snd (t_komi t)) =? 0 then "100" else "0"); []; str "H " ++ t_H t; [];
   str "Correlations " ++ t_correlations t; []; str "StopOnError " ++ str (if t_stop_on_error t then "true" else "false"); []; []])); rewrite (app_assoc A B), (app_assoc (A ++ B)) end.
    rewrite JP, <- !app_assoc.  unfold whole. destruct (t_stop_on_error t); [rewrite orb_true_r; reflexivity|]. rewrite orb_false_r.
    destruct (fst (t_komi t) mod 10 ^ Z.of_nat (snd (t_komi t)) =? 0); reflexivity.
Qed.
End C78.
Print Assumptions C78_one_line.
Print Assumptions C78_answer.
Print Assumptions C78_games.
Print Assumptions C78_status.
Print Assumptions C78_setup.

(** optparse leaves the arguments as they are exactly if none of them begins with '-' (but for
    "-" itself), or those before the first "--" don't; that one is removed. *)
Theorem C78_arguments : forall argv l, parse_args argv [] = Args l <->
  (Forall plain argv /\ l = argv) \/ (exists pre post, argv = pre ++ str "--" :: post /\ Forall plain pre /\ l = pre ++ post).
Proof. intros argv l. exact (parse_args_spec argv [] l). Qed.
Print Assumptions C78_arguments.

(** The parameters in a control file are accepted exactly if there is one, each of them can be
    loaded, those with Integer in their type have whole numbers as bounds, and no two have the
    same code; they're then kept in order. *)
Theorem C78_parameters : forall l specs, initialise_parameters l = Some specs <->
  exists cs, cs <> [] /\ l = map Some cs /\ NoDup (map pc_code cs) /\
    Forall (fun c => (exists a b, pc_type c = a ++ str "Integer" ++ b) -> integral (pc_min c) /\ integral (pc_max c)) cs /\
    Forall2 (fun c s => ps_code s = pc_code c /\ ps_type s = pc_type c /\ ps_min s = pc_min c /\ ps_max s = pc_max c /\
                        (ps_integer s = true <-> exists a b, pc_type c = a ++ str "Integer" ++ b)) cs specs.
Proof.
  intros l specs. unfold initialise_parameters.
  assert (F2 : forall cs specs', specs' = map spec_of cs <->
     Forall2 (fun c s => ps_code s = pc_code c /\ ps_type s = pc_type c /\ ps_min s = pc_min c /\ ps_max s = pc_max c /\
                        (ps_integer s = true <-> exists a b, pc_type c = a ++ str "Integer" ++ b)) cs specs').
  { induction cs as [|c cs IH]; intros specs'.
    - split; [intros ->; constructor|intros X; inversion X; reflexivity].
    - split.
      + intros ->. cbn [map]. constructor; [|apply IH; reflexivity]. cbn [ps_code ps_type ps_min ps_max ps_integer spec_of]. do 4 (split; [reflexivity|]). apply contains_spec.
      + intros X. inversion X as [|c' s' cs' ss' (H1 & H2 & H3 & H4 & H5) H6]. subst. cbn [map]. f_equal; [|apply IH; exact H6].
        unfold spec_of. destruct s' as [a b i mn mx]. cbn [ps_code ps_type ps_min ps_max ps_integer] in *. subst. f_equal. rewrite <- contains_spec in H5.
        destruct i, (contains (str "Integer") (pc_type c)); try reflexivity; [symmetry; apply H5; reflexivity|apply H5; reflexivity]. }
  destruct l as [|o l].
  - split; [discriminate|]. intros (cs & N & E & _). destruct cs; [congruence|discriminate].
  - rewrite spec_loop_spec. split.
    + intros (cs & E & FB & ND & _ & SP). exists cs. split; [intros ->; discriminate|]. split; [exact E|]. split; [exact ND|]. split; [exact FB|]. apply F2. exact SP.
    + intros (cs & _ & E & ND & FB & SP). exists cs. split; [exact E|]. split; [exact FB|]. split; [exact ND|]. split; [intros c _ []|]. apply F2. exact SP.
Qed.
Print Assumptions C78_parameters.

(** ** Examples *)
Definition demo_specs : list pspec :=
  [mkSpec (str "alpha") (str "IntegerParameter") true (FNum 0) (FNum 9); mkSpec (str "beta") (str "LinearParameter") false (FNum (-1)) (FNum 1)].
Definition demo_tuner (stop : bool) : @tuner bytes :=
  mkTuner White 2 (str "3.0") (str "all") stop demo_specs (str "gnugo") 9 (15, 1%nat) 1000 None false true CompNo.
Definition demo_result (winner : option colour) : game_result :=
  mkGR (str "gnugo") (str "#7") winner (str "?") None false (Some (str "7")) [] false None.
(** The players are their codes; floats are texts. *)
Definition demo_world (stop : bool) (winner : option colour) (bad : bool) : @world bytes bytes bytes := fun c =>
  match c return history -> outcome (answer c) with
  | ControlExists => fun _ => Good true
  | LoadRingmaster => fun _ => Good (true, false, true, demo_tuner stop)
  | OpenLog _ => fun _ => Good tt
  | MakeCandidate _ => fun _ => if bad then Raise (XOther (str "oops")) else Good (Some (str "cfg"))
  | PlayerFromConfig code _ => fun _ => Good code
  | WriteLog _ => fun _ => Good tt
  | RunJob j => fun _ => Good (mkResp (j_id j) [str "careful"] [str "played"] (demo_result winner))
  | WriteClop _ _ => fun _ => Good tt
  | DirExists _ => fun _ => Good false
  | MakeDir _ => fun _ => Raise (XEnvironment (str "no space"))
  end.
Definition demo (stop : bool) (winner : option colour) (bad : bool) (argv : list bytes) : history * Z :=
  main (fun p => p) (fun s => Some s) (fun s => s) (fun _ => str "0.5") (fun _ => str "5") (demo_world stop winner bad) (fun _ => str "trace") (str "/x/gomill-clop") argv.
Definition demo_argv : list bytes := map str ["t/tune.ctl"; "run-game"; "par0"; "7"; "alpha"; "4"; "beta"; "0.25"]%string.

Example C78_demo :
  (let '(h, s) := demo true (Some White) false demo_argv in (printed h, s)) = ([str "W"], 0) /\
  (let '(h, s) := demo true (Some Black) false demo_argv in (printed h, s)) = ([str "L"], 0) /\
  (let '(h, s) := demo true None false demo_argv in (printed h, s)) = ([str "D"], 0) /\
  (let '(h, s) := demo false None false demo_argv in (printed h, s)) = ([str "Error"], 1) /\
  (let '(h, s) := demo true (Some White) true demo_argv in (printed h, s, games h)) = ([str "Error"], 1, []) /\
  (let '(h, s) := demo true (Some White) false (firstn 7 demo_argv) in (printed h, s)) = ([str "Error"], 1) /\
  map (fun j => (j_id j, j_b j, j_w j, j_note j, j_sgf j, j_stderr j)) (games (fst (demo true (Some White) false demo_argv))) =
    [(str "7", str "gnugo", str "#7", str "Candidate parameters: alpha 4; beta 0.25",
      Some (str "t/tune.games", str "t/tune.void", str "7.sgf"), Some (str "t/tune.elog"))] /\
  parse_args demo_argv [] = Args (str "t/tune.ctl" :: str "run-game" :: skipn 2 demo_argv).
Proof. vm_compute. repeat split. Qed.

(** ** Findings *)

(** An argument such as a negative value of a parameter is taken for an option: nothing at all
    is printed, and no game is run.  So parameters can't be negative. *)
Theorem C78_finding_negative : forall {F P CFG} pcode read_float show_float pf pd (w : @world F P CFG) tb script pre d r post,
  Forall plain pre -> d <> "h"%char -> d <> "-"%char ->
  let '(h, s) := main pcode read_float show_float pf pd w tb script (pre ++ ("-"%char :: d :: r) :: post) in
  s = 2 /\ printed h = [] /\ games h = [].
Proof. intros. unfold main. rewrite parse_args_bad by assumption. repeat split. Qed.
Print Assumptions C78_finding_negative.
Example C78_finding_negative_demo :
  let '(h, s) := demo true (Some White) false (map str ["t/tune.ctl"; "run-game"; "par0"; "7"; "alpha"; "4"; "beta"; "-0.25"]%string) in s = 2 /\ printed h = [].
Proof. vm_compute. repeat split. Qed.

(** If a directory can't be made, 'setup' ends with an internal error (a NameError in the
    handler), not with a message. *)
Theorem C78_finding_name_error : demo true None false (map str ["t/tune.ctl"; "setup"]%string) =
  (fst (demo true None false (map str ["t/tune.ctl"; "setup"]%string)), 4) /\
  In (Called (MakeDir (str "t/tune.games")) (Raise (XEnvironment (str "no space")))) (fst (demo true None false (map str ["t/tune.ctl"; "setup"]%string))) /\
  last (fst (demo true None false (map str ["t/tune.ctl"; "setup"]%string))) (Said []) = Complained (str "gomill-clop: internal error" ++ [char_lf] ++ str "trace").
Proof. split; [vm_compute; reflexivity|]. split; [vm_compute; do 4 right; left; reflexivity|vm_compute; reflexivity]. Qed.
Print Assumptions C78_finding_name_error.

(** A control file with the extension .clop is accepted, and 'setup' overwrites it. *)
Theorem C78_finding_overwrites : exists text,
  In (Called (WriteClop (str "t/tune.clop") text) (Good tt)) (fst (demo true None false (map str ["t/tune.clop"; "setup"]%string))).
Proof. eexists. vm_compute. do 2 right. left. reflexivity. Qed.
Print Assumptions C78_finding_overwrites.
