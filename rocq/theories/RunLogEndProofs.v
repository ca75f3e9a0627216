From Verif Require Import Base Bytes PyStr Dict CommonModel RingModel ReportModel RunLogModel RunLogSpec RunLogProofs RunLogRunProofs RunLogMainProofs RunLogStepProofs.
Open Scope Z_scope.

Section Run.
Context {CF C ST J R : Type}.
Variable comp : competition CF C ST J R.
Variable job_id : J -> bytes.
Variable response_id : R -> bytes.
Variable job_b job_w : J -> bytes.
Variable warnings_from notes_from : R -> list bytes.
Variable describe : R -> bytes.
Variable result_text : R -> C -> option bytes.
Variable screen_report : C -> bytes.
Variable workers : option Z.
Variable terminal : bool.

Notation display := (display comp screen_report workers terminal).
Notation step := (step comp job_id response_id job_b job_w warnings_from notes_from describe result_text screen_report workers terminal).
Notation steps := (steps comp job_id response_id job_b job_w warnings_from notes_from describe result_text screen_report workers terminal).
Notation results_of := (results_of comp job_id response_id job_b job_w warnings_from notes_from describe result_text screen_report workers terminal).
Notation open_run := (open_run comp screen_report workers terminal).
Notation core_of m v n x := (core m v n (u_ring x) (u_reason x) (u_log x)).

Lemma core_open m v n x : core_of m v n x -> games_open (u_log x) (map fst (sort_keys (r_prog (u_ring (C := C) (J := J) x)))) /\
  List.length (map fst (sort_keys (r_prog (u_ring x)))) = List.length (r_prog (u_ring x)).
Proof.
  intros [P N _ _ _ _]. destruct (sorted_ids (r_prog (u_ring x)) N) as (O & I & L). split; [|exact L]. split; [exact O|].
  intros id. rewrite I. exact (P id).
Qed.

Lemma status_proof m v n (x : run C J) : core_of m v n x ->
  status_says workers terminal (u_log x) (option_map (fun k => k - n) m) (status_lines workers terminal (u_ring x) (u_reason x)).
Proof.
  intros K. destruct (core_open m v n x K) as [GO LEN]. destruct K as [P N H M L V].
  set (ids := map fst (sort_keys (r_prog (u_ring x)))) in *.
  assert (EM : (match r_prog (u_ring x) with [] => true | _ => false end) = match ids with [] => true | _ => false end).
  { destruct (r_prog (u_ring x)), ids; try reflexivity; discriminate LEN. }
  exists ids. unfold status_lines. rewrite EM, <- LEN. fold ids. eexists. eexists. eexists. split; [exact GO|]. split; [reflexivity|]. split.
  - destruct (r_stopping (u_ring x)) eqn:S.
    + right. destruct H as [HI HO]. exists (u_reason x). split; [exact HI|]. split; [reflexivity|].
      destruct workers as [w|].
      * destruct ids as [|i l].
        -- left. split; [right; reflexivity|reflexivity].
        -- right. split; [discriminate|]. split; [discriminate|reflexivity].
      * left. split; [left; reflexivity|]. reflexivity.
    + left. split; [intros (r & I); exact (H r I)|]. split; [reflexivity|]. rewrite (M eq_refl). destruct m; reflexivity.
  - destruct ids as [|i l]; [left; split; reflexivity|right]. exists i, l. split; [reflexivity|]. rewrite join_flat. reflexivity.
Qed.

Lemma status_short (x : run C J) : (List.length (status_lines workers terminal (u_ring x) (u_reason x)) <= 999)%nat.
Proof.
  unfold status_lines. rewrite !app_length. destruct (r_stopping (u_ring x)), (r_prog (u_ring x)), terminal, (r_max (u_ring x)); cbn; lia.
Qed.

Lemma screen_proof m v n res (x : run C J) b : core_of m v n x -> view res x -> u_presenter x = Some b ->
  exists text st rep u,
    u_shown (display x) = u_shown x ++ [Screen text] /\
    status_says workers terminal (u_log x) (option_map (fun k => k - n) m) st /\
    report_says (v + voids (u_log x)) (screen_report (r_comp (u_ring x))) rep /\ unended rep u /\
    screen_says st u res (warnings_of (u_log x)) text /\ r_comp (u_ring (display x)) = c_report comp (r_comp (u_ring x)).
Proof.
  intros K V P. pose proof (display_shape comp screen_report workers terminal x) as D. rewrite P in D. cbv zeta in D. rewrite D.
  unfold view in V. rewrite P in V. destruct V as (W & RS & _ & _).
  eexists. exists (status_lines workers terminal (u_ring x) (u_reason x)), (report_text screen_report (u_ring x)), (strip_newline (report_text screen_report (u_ring x))).
  split; [reflexivity|]. split; [exact (status_proof m v n x K)|]. split; [|split; [apply strip_spec|split]].
  - unfold report_says, report_text. rewrite (k_void _ _ _ _ _ _ K). eexists. split; [reflexivity|].
    destruct (Z.ltb_spec 0 (v + voids (u_log x))); [right|left]; split; (assumption || reflexivity).
  - cbn [b_status b_report b_results b_warnings]. rewrite W, RS. apply screen_text. apply status_short.
  - reflexivity.
Qed.

(** ** The results *)
Lemma log_proof quiet now m g d os x d' : loaded g -> r_max g = m -> steps os (open_run quiet now m g, d) = Some (x, d') ->
  core_of m (r_void g) (gets os) x /\ view (results_of os (open_run quiet now m g, d)) x /\ (u_presenter x = None <-> quiet = true).
Proof.
  intros LD M E. destruct (open_proof comp screen_report workers terminal quiet now m g LD M) as (K & V & P & _).
  destruct (steps_proof comp job_id response_id job_b job_w warnings_from notes_from describe result_text screen_report workers terminal m (r_void g) os 0 [] (open_run quiet now m g, d) (x, d') K V E) as (K' & V' & P').
  cbn [fst app] in *. rewrite Z.add_0_l in K'. split; [exact K'|]. split; [exact V'|]. rewrite P'. exact P.
Qed.

Lemma halts_proof m v n (x : run C J) : core_of m v n x -> halts_once (u_log x).
Proof. intros [_ _ H _ _ _]. destruct (r_stopping (u_ring x)); [exact (proj2 H)|exact (halts_none _ H)]. Qed.

Lemma run_log_proof quiet now m g d os x d' : loaded g -> r_max g = m -> steps os (open_run quiet now m g, d) = Some (x, d') ->
  halts_once (u_log x) /\ (forall k, m = Some k -> 0 <= k -> starts (u_log x) <= k).
Proof.
  intros LD M E. destruct (log_proof _ _ _ _ _ _ _ _ LD M E) as (K & _ & _). split; [exact (halts_proof _ _ _ _ K)|].
  intros k EK Z. destruct (k_left _ _ _ _ _ _ K k EK Z) as (i & _ & B & D). lia.
Qed.

Lemma warnings_proof quiet now m g d os x d' : loaded g -> r_max g = m -> steps os (open_run quiet now m g, d) = Some (x, d') ->
  if quiet then err_lines (u_shown x) = warnings_of (u_log x) /\ out_lines (u_shown x) = [] /\ screens (u_shown x) = []
  else err_lines (u_shown x) = [] /\ out_lines (u_shown x) = warnings_of (u_log x).
Proof.
  intros LD M E. destruct (log_proof _ _ _ _ _ _ _ _ LD M E) as (_ & V & P). unfold view in V.
  destruct quiet; destruct (u_presenter x).
  - destruct P as [_ P]. discriminate (P eq_refl).
  - exact V.
  - destruct V as (_ & _ & A & B). split; assumption.
  - destruct P as [P _]. discriminate (P eq_refl).
Qed.

Lemma shown_proof now m g d os i x d' : loaded g -> r_max g = m -> steps (os ++ [OGet i]) (open_run false now m g, d) = Some (x, d') ->
  exists before text st rep u c,
    u_shown x = before ++ [Screen text] /\
    status_says workers terminal (u_log x) (option_map (fun k => k - gets (os ++ [OGet i])) m) st /\
    r_comp (u_ring x) = c_report comp c /\ report_says (r_void g + voids (u_log x)) (screen_report c) rep /\ unended rep u /\
    screen_says st u (results_of (os ++ [OGet i]) (open_run false now m g, d)) (warnings_of (u_log x)) text.
Proof.
  intros LD M E. pose proof (log_proof _ _ _ _ _ _ _ _ LD M E) as (_ & VX & PX).
  assert (SPLIT : exists s, steps os (open_run false now m g, d) = Some s /\ exists a, step (OGet i) s = ((x, d'), Ok a)).
  { revert E. clear. generalize (open_run false now m g, d). induction os as [|o os IH]; intros s E.
    - cbn [app RunLogModel.steps] in E. exists s. split; [reflexivity|]. destruct (step (OGet i) s) as [s' [a|e]]; [|discriminate]. injection E as ->. exists a. reflexivity.
    - cbn [app RunLogModel.steps] in *. destruct (step o s) as [s' [a|e]]; [|discriminate]. exact (IH s' E). }
  destruct SPLIT as ([y dy] & SY & a & ST1).
  destruct (log_proof _ _ _ _ _ _ _ _ LD M SY) as (KY & VY & _).
  unfold RunLogModel.step in ST1. cbn [fst snd] in ST1. destruct (next_job comp job_id job_b job_w screen_report workers terminal i y) as [z b] eqn:N.
  injection ST1 as -> -> ->.
  destruct (get_proof comp job_id job_b job_w screen_report workers terminal _ _ _ _ i y x a KY VY N) as (_ & VX' & _ & z & EZ & KZ & VZ).
  assert (EG : gets (os ++ [OGet i]) = gets os + 1) by (unfold gets; rewrite filter_app, app_length; cbn [filter List.length]; lia).
  assert (ER : results_of (os ++ [OGet i]) (open_run false now m g, d) = results_of os (open_run false now m g, d)).
  { clear. generalize (open_run false now m g, d). induction os as [|o os IH]; intros s; [reflexivity|]. cbn [app RunLogSpec.results_of]. rewrite IH. reflexivity. }
  rewrite EG, ER.
  destruct (u_presenter z) as [bz|] eqn:PZ.
  - destruct (screen_proof _ _ _ _ z bz KZ VZ PZ) as (text & st & rep & u & S1 & S2 & S3 & S4 & S5 & S6).
    assert (LZ : u_log x = u_log z).
    { rewrite EZ. destruct (display_grows comp screen_report workers terminal z) as (G & _). rewrite (proj1 G), app_nil_r. reflexivity. }
    rewrite LZ. exists (u_shown z), text, st, rep, u, (r_comp (u_ring z)). split; [rewrite EZ; exact S1|]. split; [exact S2|].
    split; [rewrite EZ; exact S6|]. split; [exact S3|]. split; [exact S4|exact S5].
  - exfalso. pose proof (display_shape comp screen_report workers terminal z) as D. rewrite PZ in D. rewrite EZ, D in PX. destruct PX as [PX _]. discriminate (PX PZ).
Qed.

Lemma end_proof quiet now m g d os x d' e now' : loaded g -> r_max g = m -> steps os (open_run quiet now m g, d) = Some (x, d') ->
  exists ids, games_open (u_log x) ids /\
    u_log (close_run e now' x) = u_log x ++
      match e with
      | Finished => [LText (str "run finished at " ++ now')]
      | Interrupted => [LText (str "run interrupted at " ++ now'); LProgress ids]
      | Failed t => [LText (str "run finished with error at " ++ now' ++ [char_lf] ++ t); LProgress ids]
      | Internal t => [LText (str "run finished with internal error at " ++ now' ++ [char_lf] ++ t); LProgress ids]
      | Unexpected t => [LText (str "run finished with internal error at " ++ now'); LText t; LProgress ids]
      end.
Proof.
  intros LD M E. destruct (log_proof _ _ _ _ _ _ _ _ LD M E) as (K & _ & _). destruct (core_open _ _ _ _ K) as [GO _].
  exists (map fst (sort_keys (r_prog (u_ring x)))). split; [exact GO|].
  destruct e; unfold close_run, log, in_progress; cbn [u_log u_ring]; rewrite <- ?app_assoc; reflexivity.
Qed.

(** ** The same ringmaster *)

Lemma try_same i (x : run C J) q : (let '(y, a) := try_job comp job_id job_b job_w i x in (u_ring y, a)) = get_job_ comp job_id (input_of q i) (u_ring x).
Proof.
  unfold try_job, get_job_, input_of. cbn [gi_terminal gi_file gi_which]. destruct (r_stopping (u_ring x)) eqn:S; [reflexivity|].
  destruct (f_terminal i); [destruct (u_presenter x); reflexivity|].
  destruct (f_cmd i) as [|e| |msg]; cbv zeta.
  2:{ destruct e; [rewrite ring_warn|]; reflexivity. }
  all: rewrite ?ring_warn, ?S.
  all: destruct (match r_max (u_ring x) with Some m => m =? 0 | None => false end); [unfold halt_run, log; cbn [u_ring]; rewrite ?ring_warn; reflexivity|].
  all: cbn [r_replay r_comp].
  all: destruct (r_replay (u_ring x)) as [|kv rest]; [|destruct (nth (f_which i) (kv :: rest) kv); reflexivity].
  all: destruct (c_get comp (r_comp (u_ring x))) as [c [[j|]|e]]; try reflexivity.
  all: match goal with |- context [dmem ?a ?b] => destruct (dmem a b) end; reflexivity.
Qed.

Lemma same_proof quiet (x : run C J) d : (u_presenter x = None <-> quiet = true) ->
  (forall i, (let '(y, a) := next_job comp job_id job_b job_w screen_report workers terminal i x in (u_ring y, a)) =
             get_job comp job_id (input_of quiet i) (u_ring x)) /\
  (forall f r, (let '(y, ds, a) := response comp response_id warnings_from notes_from describe result_text f r x d in (u_ring y, ds, a)) =
               process_response comp response_id f r (u_ring x) d) /\
  (forall f j msg, (let '(y, ds, a) := error_response comp job_id f j msg x d in (u_ring y, ds, a)) =
                   process_error_response comp job_id f j (u_ring x) d).
Proof.
  intros P. split; [|split].
  - intros i. unfold next_job, get_job. rewrite <- (try_same i x quiet).
    destruct (try_job comp job_id job_b job_w i x) as [z [o|e]] eqn:T; [|reflexivity]. unfold input_of. cbn [gi_display].
    assert (PZ : u_presenter z = None <-> quiet = true).
    { rewrite <- P. clear P. revert T. unfold try_job.
      assert (HS : forall r (w : run C J), u_presenter (halt_run r w) = None <-> u_presenter w = None) by (intros; reflexivity).
      assert (HW : forall e (w : run C J), u_presenter (warn e w) = None <-> u_presenter w = None).
      { intros e w. unfold warn, say, log. cbn [u_presenter]. destruct (u_presenter w); cbn; split; congruence. }
      destruct (r_stopping (u_ring x)); [intros H; injection H as <- _; reflexivity|].
      destruct (f_terminal i); [intros H; injection H as <- _; destruct (u_presenter x) eqn:Q; unfold halt_run, log; cbn [u_presenter]; rewrite ?Q; reflexivity|].
      assert (TL : forall w, (u_presenter w = None <-> u_presenter x = None) -> forall rest,
        (if match r_max (u_ring w) with Some m => m =? 0 | None => false end
         then (halt_run (str "max-games reached for this run") w, Ok None) else rest) = (z, Ok o) ->
         (rest = (z, Ok o) -> (u_presenter z = None <-> u_presenter x = None)) -> (u_presenter z = None <-> u_presenter x = None)).
      { intros w HP rest H HR. destruct (match r_max (u_ring w) with Some m => m =? 0 | None => false end); [|exact (HR H)].
        assert (halt_run (str "max-games reached for this run") w = z) as <- by congruence. rewrite HS. exact HP. }
      destruct (f_cmd i) as [|e| |msg]; cbv zeta.
      2:{ intros H. destruct e as [msg|].
          - assert (warn (LWarning (str "error removing .cmd file:" ++ [char_lf] ++ msg)) (halt_run (str "stop command received") x) = z) as <- by congruence. rewrite HW, HS. reflexivity.
          - assert (halt_run (str "stop command received") x = z) as <- by congruence. rewrite HS. reflexivity. }
      all: intros H; refine (TL _ _ _ H _); [rewrite ?HW; reflexivity|]; clear H.
      all: cbn [r_replay r_comp]; match goal with |- context [match ?l with [] => _ | _ :: _ => _ end] => destruct l as [|kv rest] end.
      all: try match goal with |- context [nth ?a ?b ?c] => destruct (nth a b c) as [k j] end.
      all: try match goal with |- context [c_get ?a ?b] => destruct (c_get a b) as [c [[j|]|e]] end.
      all: try match goal with |- context [dmem ?a ?b] => destruct (dmem a b) end.
      all: intros H; try discriminate H; injection H as <- _; unfold start_job, log, with_ring; cbn [u_presenter]; try (apply HW); reflexivity. }
    pose proof (display_shape comp screen_report workers terminal z) as D.
    destruct (u_presenter z) as [b|] eqn:PB.
    + destruct quiet; [destruct PZ as [_ PZ]; discriminate (PZ eq_refl)|]. cbv zeta in D. rewrite D. reflexivity.
    + assert (quiet = true) as -> by (apply PZ; reflexivity). rewrite D. reflexivity.
  - intros f r. unfold response, process_response. cbv zeta.
    destruct (warns_fold (warnings_from r) (log (LResponse (response_id r)) x)) as (_ & A1 & _).
    set (x2 := fold_left (fun x t => warn (LWarning t) x) (warnings_from r) (log (LResponse (response_id r)) x)) in *.
    destruct (notes_fold (notes_from r) x2) as (_ & A2 & _).
    set (x3 := fold_left (fun x t => log (LNote t) x) (notes_from r) x2) in *.
    assert (R3 : u_ring x3 = u_ring x) by (rewrite A2, A1; reflexivity). rewrite R3.
    destruct (c_result comp r (r_comp (u_ring x))) as [c [[]|e]]; [|reflexivity].
    destruct (dmem (response_id r) (r_prog (with_comp c (u_ring x)))); [|reflexivity].
    destruct (write_status comp f _ d) as [ds [[]|e]]; [|reflexivity]. rewrite ring_say. reflexivity.
  - intros f j msg. unfold error_response, process_error_response. cbv zeta. rewrite ring_warn.
    match goal with |- context [c_error comp j ?p ?c] => destruct (c_error comp j p c) as [c' [[stop retry]|e]] end; [|reflexivity].
    match goal with |- context [dget (job_id j) (r_prog ?g)] => destruct (dget (job_id j) (r_prog g)) as [j'|] end; [|reflexivity].
    match goal with |- context [write_status comp f ?g d] => destruct (write_status comp f g d) as [ds [[]|e]] end; [|reflexivity].
    match goal with |- context [stop && negb ?s] => destruct (stop && negb s) end; [|reflexivity].
    unfold halt_run, log. cbn [u_ring]. rewrite ring_say. reflexivity.
Qed.
End Run.
