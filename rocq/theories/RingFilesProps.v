(** C69: the files of a competition.

    A control file's name decides where everything the ringmaster writes goes: next to it, under its
    name with the extension replaced.  The names are distinct, none is the control file's, and
    resetting a competition removes exactly those.  The type of the competition comes from the first
    line of the control file that isn't blank or a comment. *)
From Verif Require Import Base Bytes PyStr Dict RingModel RingFilesModel RingFilesSpec RingFilesProofs.

(** Every pathname names one file in one directory, and every file name has one extension. *)
Theorem C69_names_total : forall p, exists d f, names p d f /\ (forall d' f', names p d' f' -> d' = d /\ f' = f) /\
  exists code ext, has_extension f code ext /\ forall code' ext', has_extension f code' ext' -> code' = code /\ ext' = ext.
Proof.
  intros p. destruct (names_total p) as (d & f & H). exists d, f. split; [exact H|]. split.
  - intros d' f' H'. exact (names_fun _ _ _ _ _ H' H).
  - exists (fst (splitext f)), (snd (splitext f)). split; [apply splitext_has|]. intros code' ext' H'. apply has_splitext in H'. rewrite H'. split; reflexivity.
Qed.

(** A control file is refused exactly if its extension is one of the competition's own; otherwise
    the competition's files and directories are beside it, called its code and their extensions. *)
Theorem C69_pathnames : forall ctl d f code ext, names ctl d f -> f <> [] -> has_extension f code ext ->
  match competition_files ctl with
  | Err e => e = RingmasterError /\ In ext extensions
  | Ok n => ~ In ext extensions /\ p_control n = ctl /\ p_code n = code /\
      Forall2 (fun p e => names p d (code ++ e)) (generated n) extensions
  end.
Proof. exact C69_files_proof. Qed.

(** They're all different, and different from the control file. *)
Theorem C69_distinct : forall ctl d f n, competition_files ctl = Ok n -> names ctl d f -> f <> [] ->
  NoDup (ctl :: generated n).
Proof. exact C69_distinct_proof. Qed.

(** Two competitions share a pathname only if they are in the same directory and have the same
    code, and then they share all of them.  One competition's control file is another one's output
    only if the other one's code is just dots. *)
Theorem C69_sharing : forall ctl1 d1 f1 n1 ctl2 d2 f2 n2,
  competition_files ctl1 = Ok n1 -> names ctl1 d1 f1 -> f1 <> [] ->
  competition_files ctl2 = Ok n2 -> names ctl2 d2 f2 -> f2 <> [] ->
  (forall p, In p (generated n1) -> In p (generated n2) -> d1 = d2 /\ p_code n1 = p_code n2) /\
  (d1 = d2 -> p_code n1 = p_code n2 -> generated n1 = generated n2) /\
  (In ctl2 (generated n1) -> only_dots (p_code n1)).
Proof. exact C69_shared_proof. Qed.

(** Resetting changes nothing but the competition's files, and what is in its directories; those it
    deletes, as far as the operating system lets it ([keep]: what it doesn't delete). *)
Theorem C69_reset_only : forall keep n f q, let f' := delete_state_and_output keep n f in
  f' q = f q \/
  (f' q = None /\ keep q = false /\
    ((In q (files_of n) /\ exists c, f q = Some (File c)) \/
     (exists p, In p (dirs_of n) /\ within p q /\ f p = Some Dir))).
Proof. exact C69_only_proof. Qed.

Theorem C69_reset_all : forall ctl d f n keep fs q, competition_files ctl = Ok n -> names ctl d f -> f <> [] ->
  keep q = false ->
  (In q (files_of n) /\ (exists c, fs q = Some (File c))) \/
  (exists p, In p (dirs_of n) /\ within p q /\ fs p = Some Dir) ->
  delete_state_and_output keep n fs q = None.
Proof. exact C69_gone_proof. Qed.

Theorem C69_reset_control_kept : forall ctl d f n keep fs, competition_files ctl = Ok n -> names ctl d f -> f <> [] ->
  delete_state_and_output keep n fs ctl = fs ctl.
Proof. exact C69_control_kept_proof. Qed.

(** After a reset that deletes the status file, there is no saved state: a run starts afresh. *)
Theorem C69_reset_afresh : forall ctl d f n keep fs, competition_files ctl = Ok n -> names ctl d f -> f <> [] ->
  fs (p_status n) <> Some Dir -> keep (p_status n) = false ->
  status_file_exists n (delete_state_and_output keep n fs) = false.
Proof.
  intros ctl d f n keep fs E Nm NE ND K. unfold status_file_exists. destruct (fs (p_status n)) as [[c|]|] eqn:X.
  - rewrite (C69_gone_proof _ _ _ _ keep fs (p_status n) E Nm NE K); [reflexivity|]. left. split; [right; left; reflexivity|]. exists c. exact X.
  - congruence.
  - destruct (C69_only_proof keep n fs (p_status n)) as [H|[H _]]; cbn zeta in H; rewrite H; [rewrite X|]; reflexivity.
Qed.

(** The type of competition is the one declared on the first line that matters. *)
Theorem C69_competition_type : forall source,
  (forall t, parse_competition_type source = Ok t <-> exists line, first_line source line /\ declares line t) /\
  (forall e, parse_competition_type source = Err e -> e = ValueError).
Proof. intros source. split; [apply C69_type_proof|apply C69_type_err_proof]. Qed.

Theorem C69_competition_class : forall source,
  (forall c, class_of_control_file source = Ok c <-> exists line, first_line source line /\ declares line (class_name c)) /\
  (forall e, class_of_control_file source = Err e -> e = RingmasterError).
Proof. exact C69_class_proof. Qed.

Print Assumptions C69_names_total.
Print Assumptions C69_pathnames.
Print Assumptions C69_distinct.
Print Assumptions C69_sharing.
Print Assumptions C69_reset_only.
Print Assumptions C69_reset_all.
Print Assumptions C69_reset_control_kept.
Print Assumptions C69_reset_afresh.
Print Assumptions C69_competition_type.
Print Assumptions C69_competition_class.

(** ** Examples *)
Definition logs_of (ctl : string) : option (bytes * bytes) :=
  match competition_files (str ctl) with Ok n => Some (p_log n, p_sgf_dir n) | Err _ => None end.
Example foo_ctl : logs_of "comp/foo.ctl" = Some (str "comp/foo.log", str "comp/foo.games").
Proof. vm_compute. reflexivity. Qed.
Example no_extension : logs_of "//foo" = Some (str "//foo.log", str "//foo.games").
Proof. vm_compute. reflexivity. Qed.
Example hidden : logs_of ".ctl" = Some (str ".ctl.log", str ".ctl.games").
Proof. vm_compute. reflexivity. Qed.
Example refused : logs_of "comp/foo.status" = None.
Proof. vm_compute. reflexivity. Qed.
(** Two control files with the same code share everything. *)
Example same_code : logs_of "foo.ctl" = logs_of "foo.txt".
Proof. vm_compute. reflexivity. Qed.
(** The case C69_sharing excepts: the control file ".log" is accepted (a leading dot starts no
    extension), and "..log" is accepted too, but is where "." would put its log. *)
Example dots : logs_of "." = Some (str "..log", str "..games") /\ logs_of "..log" <> None.
Proof. split; vm_compute; [reflexivity|discriminate]. Qed.
(** [_write_status] (ringmasters.py:385-390) writes the status file's name and ".new", and renames
    that: nothing keeps a control file from having this name. *)
Definition temporary (ctl : string) : option bytes :=
  match competition_files (str ctl) with Ok n => Some (p_status n ++ str ".new") | Err _ => None end.
Example C69_finding_temporary : temporary "foo.ctl" = Some (str "foo.status.new") /\ logs_of "foo.status.new" <> None.
Proof. split; vm_compute; [reflexivity|discriminate]. Qed.
Example foo_names : names (str "comp/foo.ctl") (str "comp") (str "foo.ctl") /\ has_extension (str "foo.ctl") (str "foo") (str ".ctl").
Proof.
  split; [apply names_split; vm_compute; reflexivity|]. split; [reflexivity|]. left. exists (str "ctl"). split; [reflexivity|].
  split; [vm_compute; intuition discriminate|]. intros H. specialize (H "f"%char (or_introl eq_refl)). discriminate.
Qed.

(** A disk with two competitions. *)
Definition disk0 : fs := fun p =>
  if bytes_eqb p (str "foo.ctl") then Some (File (str "control"))
  else if bytes_eqb p (str "foo.log") then Some (File (str "log"))
  else if bytes_eqb p (str "foo.status") then Some (File (str "state"))
  else if bytes_eqb p (str "foo.games") then Some Dir
  else if bytes_eqb p (str "foo.games/0.sgf") then Some (File (str "(;)"))
  else if bytes_eqb p (str "foo.games2") then Some (File (str "mine"))
  else if bytes_eqb p (str "bar.status") then Some (File (str "other"))
  else None.
Definition after_reset (keep : bytes -> bool) : list (option entry) :=
  match competition_files (str "foo.ctl") with
  | Ok n => map (fun p => delete_state_and_output keep n disk0 (str p))
      (["foo.ctl"; "foo.log"; "foo.status"; "foo.games"; "foo.games/0.sgf"; "foo.games2"; "bar.status"]%string)
  | Err _ => []
  end.
Example reset_foo : after_reset (fun _ => false) =
  [Some (File (str "control")); None; None; None; None; Some (File (str "mine")); Some (File (str "other"))].
Proof. vm_compute. reflexivity. Qed.
Example reset_fails : after_reset (fun q => bytes_eqb q (str "foo.log")) =
  [Some (File (str "control")); Some (File (str "log")); None; None; None; Some (File (str "mine")); Some (File (str "other"))].
Proof. vm_compute. reflexivity. Qed.

(** Control file texts. *)
Definition lines_of (l : list string) : bytes := join [char_lf] (map str l).
Example a_playoff : class_of_control_file (lines_of (["# comment"; "  "; "competition_type = 'playoff'"; "board_size = 9"]%string)) = Ok Playoff.
Proof. vm_compute. reflexivity. Qed.
Example not_first : class_of_control_file (lines_of (["board_size = 9"; "competition_type = 'playoff'"]%string)) = Err RingmasterError.
Proof. vm_compute. reflexivity. Qed.
Example mixed_quotes : class_of_control_file (lines_of (["competition_type = 'playoff"""]%string)) = Err RingmasterError.
Proof. vm_compute. reflexivity. Qed.
Example unknown_type : parse_competition_type (str "competition_type='knockout'") = Ok (str "knockout") /\ class_of_control_file (str "competition_type='knockout'") = Err RingmasterError.
Proof. split; vm_compute; reflexivity. Qed.
(** A trailing space or comment, leading white space, or a carriage return, and the line isn't seen. *)
Example strict_lines : map parse_competition_type
    [str "competition_type='playoff' "; str "competition_type='playoff' # best"; str " competition_type='playoff'"; str "competition_type='playoff'" ++ [char_cr; char_lf]]
  = [Err ValueError; Err ValueError; Err ValueError; Err ValueError].
Proof. vm_compute. reflexivity. Qed.
