(** C72: the 'ringmaster' command. *)
From Verif Require Import Base Bytes PyStr RingFilesModel CliModel CliSpec CliProofs CliStepProofs CliActProofs CliMainProofs CliTopProofs.
Open Scope Z_scope.

(** Wrong arguments: status 2, a message, and nothing else is done.  Otherwise the status isn't 2,
    and the command is the one that was named, or 'run'. *)
Definition command_line (args : list bytes) (control : bytes) (c : command) : Prop :=
  (args = [control] /\ c = Run) \/ exists name, args = [control; name] /\ In (name, c) named.

Inductive usage (args : list bytes) : bytes -> Prop :=
| none_given : args = [] -> usage args (str "no control file specified")
| unknown control name : args = [control; name] -> usage args (str "no such command: " ++ name)
| too_many : (List.length args > 2)%nat -> usage args (str "too many arguments").

Section Cli.
Context {ST : Type}.
Variable st0 : ST.
Variable w : @world ST.
Variable decodes : bytes -> bool.
Variable comp_vn : Z.
Variable brief traceback : exn -> bytes.
Notation main := (main w decodes comp_vn brief traceback).
Notation perform := (perform w decodes comp_vn brief traceback).

Theorem C72_arguments o args :
  (exists control c, command_line args control c /\ main o args = perform c control o) \/
  ((forall control c, ~ command_line args control c) /\ exists t, usage args t /\ main o args = ([Complained (str "ringmaster: error: " ++ t ++ [char_lf])], 2)).
Proof.
  assert (NO : forall l : list bytes, (forall control name, l <> [control; name]) -> (forall control, l <> [control]) -> forall control c, ~ command_line l control c).
  { intros l N2 N1 control c [(E & _)|(name & E & _)]; [exact (N1 _ E)|exact (N2 _ _ E)]. }
  destruct args as [|control [|name [|x r]]]; cbn [CliModel.main].
  - right. split; [apply NO; discriminate|]. eexists. split; [constructor; reflexivity|reflexivity].
  - left. exists control, Run. split; [left; auto|reflexivity].
  - destruct (find_action name) as [c|] eqn:F.
    + left. exists control, c. split; [|reflexivity]. right. exists name. split; [reflexivity|]. apply find_action_named. exact F.
    + right. split; [|eexists; split; [eapply unknown; reflexivity|reflexivity]]. intros ctl c [(E & _)|(n & E & IN)]; [discriminate E|]. injection E as <- <-.
      apply find_action_named in IN. congruence.
  - right. split; [apply NO; discriminate|]. eexists. split; [apply too_many; cbn; lia|reflexivity].
Qed.

(** If a call raises an exception, that's the last call, and the exit status and the messages on
    standard error are those of the table [verdict].  If none does, the status is 0 and there are
    no messages, or the command is refused with a message that says why. *)
Theorem C72_exit_status c control o h n : perform c control o = (h, n) ->
  (exists h1 q e h2, h = h1 ++ Called q (Raise e) :: h2 /\ raises h1 = [] /\ calls h2 = [] /\ (n, complaints h) = verdict brief traceback c q e) \/
  (raises h = [] /\ n = 0 /\ complaints h = []) \/
  (raises h = [] /\ exists h1 cs, h = h1 ++ map Complained cs /\ complaints h1 = [] /\ refused decodes comp_vn traceback c control h1 (n, cs)).
Proof. intros E. pose proof (perform_ok w decodes comp_vn brief traceback control o st0 c) as H. rewrite E in H. apply H. Qed.

(** The calls are those of the command's plan, in that order, up to the end of the command; if the
    status is 0 they have all been made. *)
Theorem C72_plan c control o h n : perform c control o = (h, n) ->
  exists codes p, planned o codes c p /\ prefix (calls h) (opening ++ p) /\ (n = 0 -> calls h = opening ++ p).
Proof. intros E. pose proof (perform_ok w decodes comp_vn brief traceback control o st0 c) as H. rewrite E in H. apply H. Qed.

(** Each call is made only after what it depends on: in particular games are played only after all
    the players passed their checks (unless these are to be skipped) and the saved state, of the
    right version, was loaded. *)
Theorem C72_ready c control o h n h1 q r h2 : perform c control o = (h, n) -> h = h1 ++ Called q r :: h2 -> ready comp_vn c o q h1.
Proof. intros E X. pose proof (perform_ok w decodes comp_vn brief traceback control o st0 c) as H. rewrite E in H. destruct H as (_ & H & _). exact (H h1 q r h2 X). Qed.

(** What is said on standard output. *)
Theorem C72_output c control o h n : perform c control o = (h, n) -> said h = flat_map (said_of c o (skipped h)) h.
Proof. intros E. pose proof (perform_ok w decodes comp_vn brief traceback control o st0 c) as H. rewrite E in H. apply H. Qed.

(** The status is 3 exactly if a keyboard interrupt came. *)
Theorem C72_interrupt c control o h n : perform c control o = (h, n) -> (n = 3 <-> exists q, In (q, XKeyboard) (raises h)).
Proof.
  intros E. destruct (C72_exit_status c control o h n E) as [(h1 & q & e & h2 & -> & R1 & C2 & V)|[(R & -> & _)|(R & h1 & cs & _ & _ & RF)]].
  - assert (R2 : raises h2 = []).
    { clear - C2. induction h2 as [|v h2 IH]; [reflexivity|]. destruct v; [discriminate C2|exact (IH C2)|exact (IH C2)]. }
    change (h1 ++ Called q (Raise e) :: h2) with (h1 ++ [Called q (Raise e)] ++ h2). rewrite !raises_app, R1, R2. cbn.
    assert (N : n = fst (verdict (ST:=ST) brief traceback c q e)) by (rewrite <- V; reflexivity). subst n. split.
    + intros N3. exists q. left. f_equal. clear - N3. destruct q; cbn in N3; destruct e; try reflexivity; try discriminate N3; destruct c; discriminate N3.
    + intros (q' & [X|[]]). injection X as _ ->. destruct q; try reflexivity; destruct c; reflexivity.
  - rewrite R. split; [discriminate|intros (q & [])].
  - rewrite R. split; [|intros (q & [])]. intros ->. inversion RF.
Qed.

(** The status is always 0, 1, 3 or 4. *)
Theorem C72_statuses c control o h n : perform c control o = (h, n) -> In n [0; 1; 3; 4].
Proof.
  intros E. destruct (C72_exit_status c control o h n E) as [(h1 & q & e & h2 & -> & R1 & C2 & V)|[(R & -> & _)|(R & h1 & cs & _ & _ & RF)]].
  - assert (N : n = fst (verdict (ST:=ST) brief traceback c q e)) by (rewrite <- V; reflexivity). subst n. clear.
    destruct q; cbn; destruct e; cbn; auto; destruct c; cbn; auto.
  - cbn. auto.
  - inversion RF; cbn; auto.
Qed.
End Cli.
Print Assumptions C72_arguments.
Print Assumptions C72_exit_status.
Print Assumptions C72_plan.
Print Assumptions C72_ready.
Print Assumptions C72_output.
Print Assumptions C72_interrupt.
Print Assumptions C72_statuses.

(** ** Concrete cases *)
Definition demo_control : bytes := str "competition_type = 'playoff'".
(** A world with two players, a saved state of version [vn], and one call that fails. *)
Definition demo_world (vn : Z) (skip : bool) (fails : option (@call Z * exn)) : @world Z := fun c _ =>
  match fails with
  | Some (CheckPlayer a _, e) =>
      match c as c0 return outcome (answer c0) with
      | CheckPlayer b _ => if bytes_eqb a b then Raise e else Good [str "slow"]
      | ControlExists | StatusExists => Good true
      | ReadControl => Good demo_control
      | Interpret => Good (Some (str "playoff"))
      | InitRingmaster => Good skip
      | PlayerChecks => Good [str "x"; str "y"]
      | ReadStatus => Good (Pair 0 (mkStatus (Some vn) (Some 7) (Some 42)))
      | InitCompetition | SetStatus _ _ | SetClean | OpenFiles _ | RunJobs _ _ _ | CloseFiles | WriteReport | WriteCommand _ | ShortReport | DeleteAll | PrintStatus => Good tt
      end
  | _ =>
      match c as c0 return outcome (answer c0) with
      | CheckPlayer b _ => Good [str "slow"]
      | ControlExists | StatusExists => Good true
      | ReadControl => Good demo_control
      | Interpret => Good (Some (str "playoff"))
      | InitRingmaster => Good skip
      | PlayerChecks => Good [str "x"; str "y"]
      | ReadStatus => Good (Pair 0 (mkStatus (Some vn) (Some 7) (Some 42)))
      | RunJobs _ _ _ => match fails with Some (RunJobs _ _ _, e) => Raise e | _ => Good tt end
      | InitCompetition | SetStatus _ _ | SetClean | OpenFiles _ | CloseFiles | WriteReport | WriteCommand _ | ShortReport | DeleteAll | PrintStatus => Good tt
      end
  end.
Definition demo_options : options := mkOptions (Some 10) (Some 2) false true.
Definition demo_main (vn : Z) (skip : bool) (fails : option (@call Z * exn)) (args : list string) : list (@call Z) * list bytes * list bytes * Z :=
  let '(h, n) := main (demo_world vn skip fails) (fun _ => true) 1 (fun _ => str "brief") (fun _ => str "traceback") demo_options (map str args) in
  (calls h, said h, complaints h, n).

Example C72_demo_run : demo_main 1 false None ["c.ctl"]%string =
  ([ControlExists; ReadControl; Interpret; InitRingmaster; InitCompetition; PlayerChecks; CheckPlayer (str "x") true; CheckPlayer (str "y") true;
    StatusExists; ReadStatus; SetStatus 7 42; OpenFiles true; RunJobs false (Some 2) (Some 10); CloseFiles; WriteReport],
   [str "running startup checks on all players"], [], 0).
Proof. vm_compute. reflexivity. Qed.
Example C72_demo_bad_player : demo_main 1 false (Some (CheckPlayer (str "y") true, XCheck (str "no such file"))) ["c.ctl"; "run"]%string =
  ([ControlExists; ReadControl; Interpret; InitRingmaster; InitCompetition; PlayerChecks; CheckPlayer (str "x") true; CheckPlayer (str "y") true],
   [str "running startup checks on all players"; str "player y failed startup check:" ++ [char_lf] ++ str "no such file"; str "(use the 'check' command to see stderr output)"], [], 1).
Proof. vm_compute. reflexivity. Qed.
Example C72_demo_check : demo_main 1 true (Some (CheckPlayer (str "y") true, XOther [])) ["c.ctl"; "check"]%string =
  ([ControlExists; ReadControl; Interpret; InitRingmaster; InitCompetition; PlayerChecks; CheckPlayer (str "x") false; CheckPlayer (str "y") false],
   [str "checking player x"; str "slow"; str "checking player y"], [str "ringmaster: internal error" ++ [char_lf] ++ str "traceback"], 4).
Proof. vm_compute. reflexivity. Qed.
Example C72_demo_interrupted : demo_main 1 true (Some (RunJobs false None None, XKeyboard)) ["c.ctl"; "run"]%string =
  ([ControlExists; ReadControl; Interpret; InitRingmaster; InitCompetition; PlayerChecks;
    StatusExists; ReadStatus; SetStatus 7 42; OpenFiles true; RunJobs false (Some 2) (Some 10)],
   [str "running startup checks on all players"; str "skipping 2 Player checks"], [], 3).
Proof. vm_compute. reflexivity. Qed.
Example C72_demo_old_status : demo_main 2 false None ["c.ctl"; "show"]%string =
  ([ControlExists; ReadControl; Interpret; InitRingmaster; InitCompetition; StatusExists; ReadStatus], [],
   [str "ringmaster: incompatible status file" ++ [char_lf]], 1).
Proof. vm_compute. reflexivity. Qed.
Example C72_demo_usage : demo_main 1 false None ["c.ctl"; "go"]%string = ([], [], [str "ringmaster: error: no such command: go" ++ [char_lf]], 2).
Proof. vm_compute. reflexivity. Qed.
