(** C73: what the MCTS tuner says. *)
From Coq Require Import QArith Permutation Sorted.
From Verif Require Import Base Bytes PyStr Dict CommonModel SgfPropsModel SchedModel SchedSpec SchedProofs GameplayModel TableModel ReportModel SgfValueProofs ReportTextProofs MctsModel MctsSpec MctsCellProofs MctsTreeProofs MctsProofs MctsLedgerProofs MctsReportModel MctsReportSpec MctsOrderProofs MctsReportProofs MctsReportMainProofs MctsProps.
Open Scope Z_scope.

(** Initial values as the control file's interpreter accepts them. *)
Definition initial_values {V P} (cf : mconfig V P) : Prop :=
  0 < tp_initial_visits (mc_tree cf) /\ 0 <= tp_initial_wins (mc_tree cf).

(** Whatever has happened (games finishing or failing in any order, wrong responses, the status
    saved and the process restarted), the reports can be written: what they say about the tree is
    what follows from the games which were finished; the number of games played, the best
    parameters, the most visited nodes, the games in progress and the opponent are right. *)
Theorem C73_reports : forall (V P : Type) (veqb : V -> V -> bool) less tie formats show_value rc (cf : mconfig V P),
  (forall x, veqb x x = true) -> usable cf -> initial_values cf ->
  forall random calls, exists t st events now saved,
    mrun veqb less cf (set_clean_status (with_random random cf), None) calls = Some (t, st, events) /\
    msteps cf (empty_ledger, empty_ledger) events (now, saved) /\
    (exists s, main_report tie formats show_value rc t = Ok s /\ main_says formats show_value cf (mt_root t) now rc s) /\
    (exists s, screen_report tie formats show_value rc t = Ok s /\ screen_says formats show_value cf (mt_root t) now rc s) /\
    (exists s, short_report tie formats show_value rc t = Ok s /\
       short_says formats show_value cf (mt_root t) now rc (description (mc_opponent cf) events None None) s).
Proof.
  intros V P veqb less tie formats sv rc cf VR OK [IV IW] random cs. destruct (history veqb VR less cf OK random cs) as (t & st & es & now & saved & E & M & I).
  exists t, st, es, now, saved. split; [exact E|]. split; [exact M|].
  pose proof (description_proof veqb less cf cs (set_clean_status (with_random random cf)) None _ _ _ (eq_refl (mc_opponent cf)) E) as D. cbn [set_clean_status mt_desc saved_desc] in D. rewrite <- D.
  split; [|split]; [apply main_proof|apply screen_proof|apply short_proof]; assumption.
Qed.
Print Assumptions C73_reports.

(** The tree which the reports are about has the statistics of the finished games (C41), so the
    summary's selection and figures are determined by them. *)
Theorem C73_summary : forall (V P : Type) (veqb : V -> V -> bool) less tie formats show_value (cf : mconfig V P),
  (forall x, veqb x x = true) -> usable cf -> initial_values cf ->
  forall random calls spec, exists t st events now saved s,
    mrun veqb less cf (set_clean_status (with_random random cf), None) calls = Some (t, st, events) /\
    msteps cf (empty_ledger, empty_ledger) events (now, saved) /\
    summarise tie formats show_value cf (mt_root t) spec = Ok s /\
    summary_says formats show_value cf (mt_root t) now 1 spec s.
Proof.
  intros V P veqb less tie formats sv cf VR OK [IV IW] random cs spec. destruct (history veqb VR less cf OK random cs) as (t & st & es & now & saved & E & M & I).
  destruct (summary_proof tie formats sv cf OK (mt_root t) now (mi_shows _ _ _ I) (mi_wf _ _ _ I) IV IW spec 0 _ (gen_start (mt_root t))) as (s & ES & TS).
  exists t, st, es, now, saved, s. auto.
Qed.
Print Assumptions C73_summary.

(** What is recorded in the history file and the event log when a game's result arrives. *)
Theorem C73_result_text : forall (V P : Type) (veqb : V -> V -> bool) less tie formats show_value rc (cf : mconfig V P),
  (forall x, veqb x x = true) -> usable cf -> initial_values cf -> (forall k, rc_period rc = Some k -> 0 < k) ->
  forall random calls r sgf_result, exists t st events now saved,
    mrun veqb less cf (set_clean_status (with_random random cf), None) calls = Some (t, st, events) /\
    msteps cf (empty_ledger, empty_ledger) events (now, saved) /\
    match process_game_result r t with
    | (t', Ok _) => exists o1 path o2 w logged returned,
        l_out now = o1 ++ (mr_data r, path) :: o2 /\ candidate_won (mc_opponent cf) r w /\
        result_text tie formats show_value rc r sgf_result t = Ok (logged, returned) /\
        result_says formats show_value cf (mt_root t') (mkL ((mr_data r, Some (path, w)) :: l_done now) (o1 ++ o2) false) rc path w sgf_result logged returned
    | (_, Err _) => exists e, result_text tie formats show_value rc r sgf_result t = Err e
    end.
Proof.
  intros V P veqb less tie formats sv rc cf VR OK [IV IW] KP random cs r sgf. destruct (history veqb VR less cf OK random cs) as (t & st & es & now & saved & E & M & I).
  exists t, st, es, now, saved. split; [exact E|]. split; [exact M|]. apply result_proof; assumption.
Qed.
Print Assumptions C73_result_text.

(** The note in the game record of a game shows the values its candidate was made with. *)
Lemma functional_values {A B} (l : list ((A -> option B) * A)) : forall a b,
  Forall2 (fun fx v => (fst fx) (snd fx) = Some v) l a -> Forall2 (fun fx v => (fst fx) (snd fx) = Some v) l b -> a = b.
Proof.
  induction l as [|x l IH]; intros a b HA HB; inversion HA; inversion HB; subst; [reflexivity|]. f_equal; [congruence|]. apply IH; assumption.
Qed.
Theorem C73_sgf_note : forall (V P : Type) (veqb : V -> V -> bool) less formats show_value (cf : mconfig V P),
  (forall x, veqb x x = true) -> usable cf ->
  forall random calls t st events t' j,
    mrun veqb less cf (set_clean_status (with_random random cf), None) calls = Some (t, st, events) ->
    get_game less t = (t', Ok (Some j)) ->
    exists path values p words,
      iget (mj_data j) (mt_sims t') = Some path /\ values_of cf path values /\ mc_maker cf values = Some p /\
      (let candidate := (str "#" ++ mj_id j, p) in mj_black j = candidate \/ mj_white j = candidate) /\
      Forall2 (fun fv s => value_text show_value (fst fv) (snd fv) s) (combine formats values) words /\
      sgf_note formats show_value (mt_conf t) path = Ok (str "Candidate parameters: " ++ join (str "; ") words).
Proof.
  intros V P veqb less formats sv cf VR OK random cs t st es t' j E G. destruct (history veqb VR less cf OK random cs) as (t1 & st1 & es1 & now & saved & E1 & _ & I).
  rewrite E in E1. injection E1 as <- <- <-. pose proof (get_inv less cf OK t now I) as H. rewrite G in H.
  destruct H as (n & path & _ & _ & PO & (params & eps & p & EP & FV & EM & EI & ED & JC) & EG & _).
  destruct (mi_conf _ _ _ I) as (r & EC).
  assert (FP : Forall (fun i => (i < branching (tp_splits (mc_tree cf)))%nat) path). { rewrite branching_product. exact (proj2 PO). }
  destruct (params_proof formats sv cf OK path FP) as (s & ES & vs & ws & VO & FW & ->).
  assert (vs = eps). { destruct VO as (ps & rr & EP' & _ & _ & FV'). assert (ps = params) by congruence. subst ps. eapply functional_values; eauto. }
  subst eps. exists path, vs, p, ws. split; [exact EG|]. split; [exact VO|]. split; [exact EM|]. split.
  - cbv zeta in JC |- *. rewrite EI. destruct JC as [(JB & _)|(_ & JW & _)]; auto.
  - split; [exact FW|]. unfold sgf_note. rewrite EC. change (format_path formats sv (with_random r cf) path) with (format_path formats sv cf path). rewrite ES. reflexivity.
Qed.
Print Assumptions C73_sgf_note.

(** ** An example: the history of C41_demo, with the reports at the end. *)
Definition demo_formats : list (bytes * (bytes -> option bytes)) := [(str "resign", fun v => if bytes_eqb v (str "p") then None else Some (str "r=" ++ v))].
Definition demo_rc : rconfig := mkRC (str "demo") (Some (str "A test")) 9 (75, 1%nat) [2; 2] 1 (Some 1).
Example C73_demo_hypotheses : usable demo_cf2 /\ initial_values demo_cf2.
Proof. split; [apply C41_demo_usable|]. split; reflexivity || (cbn; lia). Qed.
Example C73_demo_reports : match demo_events with
  | Some (t, _, es) =>
      main_report (fun _ _ => true) demo_formats (fun v => v) demo_rc t =
        Ok (written [str "2/3 games played"; []; str "Best parameters: [resign?p] [(0,) (0,)]"; [];
                     str "most visited at depth 1"; str "(0,) r=q                                      0.545   1"; str "(1,) r=s                                      0.500   0"; [];
                     str "most visited at depth 2"; str "(0,) (0,) [resign?p]                               0.500   0"; str "(0,) (1,) r=q                                      0.500   0"; []])
  | None => False
  end.
Proof. vm_compute. reflexivity. Qed.
Definition demo_screen := match mrun bytes_eqb demo_less demo_cf2 (set_clean_status (with_random (fun _ => O) demo_cf2), None)
    [CGet; CGet; CGet; CResult (demo_lost 1)] with
  | Some (t, _, _) => Some (screen_report (fun _ _ => true) demo_formats (fun v => v) (mkRC (str "demo") (Some (str "A test")) 9 (75, 1%nat) [] 1 None) t,
                            short_report (fun _ _ => true) demo_formats (fun v => v) (mkRC (str "demo") (Some (str "A test")) 9 (75, 1%nat) [] 1 None) t,
                            result_text (fun _ _ => true) demo_formats (fun v => v) demo_rc (mkMR (str "2") 2 None [(str "opp", str "X")]) (str "Void") t)
  | None => None
  end.
Example C73_demo_screen : demo_screen = Some
  (Ok (written [str "1/3 games played"; []; str "Best parameters: r=q [(0,)]"; []; str "In progress:"; str "game 0: r=q [(0,)]"]),
   Ok (written [str "MCTS tuning event: demo"; str "A test"; str "board size: 9"; str "komi: 7.5"; str "1/3 games played"; []; str "Best parameters: r=q [(0,)]"; [];
                str "opponent (opp): Opponent 1.0"; []]),
   Ok ([str "r=q [(0,)] lost";
        join [char_lf] [str "3 nodes"; str "Win rate 1/2 = 0.500"; str "  (0,) r=q 0.500   2"; str "  (1,) r=s 0.500   0"]], str "r=q [(0,)] lost Void")).
Proof. vm_compute. reflexivity. Qed.
