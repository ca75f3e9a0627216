From Verif Require Import Base Bytes PyStr Dict CommonModel RingModel ReportModel RunLogModel RunLogSpec RunLogProofs RunLogRunProofs RunLogMainProofs.
Open Scope Z_scope.

Section Run.
Context {CF C ST J R : Type}.
Variable comp : competition CF C ST J R.
Variable job_id : J -> bytes.
Variable response_id : R -> bytes.
Variable job_b job_w : J -> bytes.
Variable warnings_from notes_from : R -> list bytes.
Variable describe : R -> bytes.
Variable result_text : R -> C -> option bytes.
Variable screen_report : C -> bytes.
Variable workers : option Z.
Variable terminal : bool.

Notation display := (display comp screen_report workers terminal).
Notation try_job := (try_job comp job_id job_b job_w).
Notation next_job := (next_job comp job_id job_b job_w screen_report workers terminal).
Notation response := (response comp response_id warnings_from notes_from describe result_text).
Notation error_response := (error_response comp job_id).
Notation step := (step comp job_id response_id job_b job_w warnings_from notes_from describe result_text screen_report workers terminal).
Notation steps := (steps comp job_id response_id job_b job_w warnings_from notes_from describe result_text screen_report workers terminal).
Notation results_of := (results_of comp job_id response_id job_b job_w warnings_from notes_from describe result_text screen_report workers terminal).
Notation open_run := (open_run comp screen_report workers terminal).
Notation core_of m v n x := (core m v n (u_ring x) (u_reason x) (u_log x)).

Definition view (res : list bytes) (x : run C J) : Prop :=
  match u_presenter x with
  | None => err_lines (u_shown x) = warnings_of (u_log x) /\ out_lines (u_shown x) = [] /\ screens (u_shown x) = []
  | Some b => b_warnings b = warnings_of (u_log x) /\ b_results b = res /\ err_lines (u_shown x) = [] /\ out_lines (u_shown x) = warnings_of (u_log x)
  end.

Lemma view_grows res rs es x y : view res x -> grows x y es rs -> view (res ++ rs) y.
Proof.
  unfold view. intros V [L G]. rewrite L, warnings_app. unfold err_lines, out_lines, screens in *.
  destruct (u_presenter x) as [b|], (u_presenter y) as [b'|]; try contradiction.
  - destruct V as (W & Q & E & O), G as (W' & Q' & sh & S & E' & O'). rewrite S, !flat_map_app, W', W, Q', Q, E, E', O, O'.
    split; [reflexivity|]. split; [reflexivity|]. split; reflexivity.
  - destruct V as (E & O & S), G as (sh & S' & E' & O' & SS'). rewrite S', !flat_map_app, E, E', O, O', S, SS'.
    split; [reflexivity|]. split; reflexivity.
Qed.

(** ** The display *)
Lemma display_shape x : 
  match u_presenter x with
  | None => display x = x
  | Some b =>
      let g := u_ring x in
      let b' := mkBoxes (status_lines workers terminal g (u_reason x)) [strip_newline (report_text screen_report g)] (b_results b) (b_warnings b) in
      display x = mkRun (with_comp (c_report comp (r_comp g)) g) (u_reason x) (u_log x) (Some b') (u_shown x ++ p_refresh (Some b'))
  end.
Proof.
  unfold RunLogModel.display. destruct (u_presenter x) as [b|] eqn:P; [|reflexivity]. cbv zeta.
  erewrite says_fold; [|cbn [u_presenter p_clear put_box]; reflexivity].
  cbn [u_ring u_reason u_log u_presenter u_shown p_clear put_box b_status b_report b_results b_warnings].
  unfold say. cbn [u_ring u_reason u_log u_presenter u_shown p_say put_box get_box b_status b_report b_results b_warnings app].
  rewrite !app_nil_r. reflexivity.
Qed.

Lemma display_grows x : grows x (display x) [] [] /\ u_reason (display x) = u_reason x /\
  r_prog (u_ring (display x)) = r_prog (u_ring x) /\ r_stopping (u_ring (display x)) = r_stopping (u_ring x) /\
  r_max (u_ring (display x)) = r_max (u_ring x) /\ r_void (u_ring (display x)) = r_void (u_ring x).
Proof.
  pose proof (display_shape x) as D. destruct (u_presenter x) as [b|] eqn:P.
  - cbv zeta in D. rewrite D. unfold grows. rewrite P. cbn [u_log u_presenter u_reason u_ring u_shown b_warnings b_results].
    split; [|repeat split]. split; [rewrite app_nil_r; reflexivity|]. rewrite !app_nil_r. split; [reflexivity|]. split; [reflexivity|].
    eexists. split; [reflexivity|]. split; reflexivity.
  - rewrite D. split; [apply grows_refl; reflexivity|]. repeat split.
Qed.

(** ** Operations *)
Lemma halt_grows r (x : run C J) : r <> str "too many void games" -> grows x (halt_run r x) [LHalt r] [] /\
  u_ring (halt_run r x) = halt (u_ring x) /\ u_reason (halt_run r x) = r.
Proof.
  intros N. split; [|split; reflexivity]. unfold halt_run.
  set (y := mkRun (halt (u_ring x)) r (u_log x) (u_presenter x) (u_shown x)).
  refine (grows_trans x y _ [] [] [LHalt r] [] (grows_refl x y eq_refl eq_refl eq_refl) (grows_log (LHalt r) y _)).
  cbn [warnings_of flat_map]. destruct (bytes_eqb_spec r (str "too many void games")) as [E|_]; [contradiction|reflexivity].
Qed.

(** [injection], without unfolding. *)
Ltac fsts E := let Y := fresh in pose proof (f_equal fst E) as Y; cbn [fst] in Y; symmetry in Y; rewrite Y in *; clear E; try clear Y.
Lemma quiet_one t : Forall quiet_entry [LWarning t].
Proof. constructor; [exact I|constructor]. Qed.

Ltac halting r X H :=
  let G := fresh "G" in let E1 := fresh "E" in let E2 := fresh "E" in
  assert (H : grows X (halt_run r X) [LHalt r] [] /\ u_ring (halt_run r X) = halt (u_ring X) /\ u_reason (halt_run r X) = r)
    by (apply halt_grows; discriminate).

Lemma try_proof m v n res i x y a : core_of m v n x -> view res x -> try_job i x = (y, Ok a) ->
  core_of m v (n + 1) y /\ view res y /\ (u_presenter y = None <-> u_presenter x = None).
Proof.
  intros K V E. rewrite <- (app_nil_r res).
  assert (GP : forall es z, grows x z es [] -> view (res ++ []) z /\ (u_presenter z = None <-> u_presenter x = None)).
  { intros es z G. split; [exact (view_grows _ _ _ _ _ V G)|]. destruct G as [_ G]. destruct (u_presenter x), (u_presenter z); try contradiction; split; congruence. }
  unfold RunLogModel.try_job in E. destruct (r_stopping (u_ring x)) eqn:S.
  { injection E as <- _. split; [exact (core_stopped _ _ _ _ _ _ _ K S)|]. apply (GP [] x). apply grows_refl; reflexivity. }
  destruct (f_terminal i).
  { cbv zeta in E. fsts E. halting (str "stop instruction received from terminal") x H. destruct H as (G & E1 & E2).
    set (h := halt_run (str "stop instruction received from terminal") x) in *.
    assert (KH : core_of m v (n + 1) h).
    { rewrite E1, E2, (proj1 G). exact (core_halts _ _ _ _ _ _ _ _ K S). }
    clearbody h. destruct (u_presenter x) as [b|] eqn:P.
    - split; [exact KH|]. exact (GP _ _ G).
    - split; [exact KH|]. apply (GP [LHalt (str "stop instruction received from terminal")]). destruct G as [L G]. split; [exact L|].
      rewrite P in G |- *. cbn [u_presenter u_shown]. destruct (u_presenter h); [contradiction|].
      destruct G as (sh & SH & A & B & D). exists (sh ++ [OnTerminal]). unfold err_lines, out_lines, screens in *.
      rewrite !flat_map_app, A, B, D, SH, <- app_assoc. cbn [flat_map]. rewrite !app_nil_r. repeat split. }
  assert (TAIL : forall z es, grows x z es [] -> Forall quiet_entry es -> u_ring z = u_ring x -> u_reason z = u_reason x ->
    (if match r_max (u_ring z) with Some m => m =? 0 | None => false end
     then (halt_run (str "max-games reached for this run") z, Ok None)
     else
      let g := u_ring z in
      let g1 := mkRing (r_comp g) (r_void g) (r_prog g) (r_replay g) (r_errors g) (r_stopping g)
                  (match r_max g with Some m => Some (m - 1) | None => None end) in
      match r_replay g1 with
      | kv :: _ =>
          let (k, j) := nth (f_which i) (r_replay g1) kv in
          (start_job job_id job_b job_w j (with_ring (with_games (dset (job_id j) j (r_prog g1)) (ddel k (r_replay g1)) g1) z), Ok (Some j))
      | [] =>
          match c_get comp (r_comp g1) with
          | (c, Err e) => (with_ring (with_comp c g1) z, Err e)
          | (c, Ok None) => (with_ring (with_comp c g1) z, Ok None)
          | (c, Ok (Some j)) =>
              let g2 := with_comp c g1 in
              if dmem (job_id j) (r_prog g2) then (with_ring g2 z, Err RingmasterInternalError)
              else (start_job job_id job_b job_w j (with_ring (with_games (dset (job_id j) j (r_prog g2)) (r_replay g2) g2) z), Ok (Some j))
          end
      end) = (y, Ok a) ->
    core_of m v (n + 1) y /\ view (res ++ []) y /\ (u_presenter y = None <-> u_presenter x = None)).
  { clear E. intros z es G Q EZ ER E.
    assert (KZ : core_of m v n z) by (rewrite EZ, ER, (proj1 G); apply core_quiet; assumption).
    assert (SZ : r_stopping (u_ring z) = false) by (rewrite EZ; exact S).
    destruct (match r_max (u_ring z) with Some m => m =? 0 | None => false end) eqn:MZ.
    { fsts E. halting (str "max-games reached for this run") z H. destruct H as (G2 & E1 & E2). split.
      - rewrite E1, E2, (proj1 G2). exact (core_halts _ _ _ _ _ _ _ _ KZ SZ).
      - apply (GP (es ++ [LHalt (str "max-games reached for this run")])). exact (grows_trans _ _ _ _ _ _ _ G G2). }
    cbv zeta in E.
    set (g1 := mkRing (r_comp (u_ring z)) (r_void (u_ring z)) (r_prog (u_ring z)) (r_replay (u_ring z)) (r_errors (u_ring z)) (r_stopping (u_ring z))
                  (match r_max (u_ring z) with Some m => Some (m - 1) | None => None end)) in *.
    destruct (core_ask m v n (u_ring z) g1 (u_reason z) (u_log z) KZ SZ MZ eq_refl SZ eq_refl eq_refl) as [KA LA].
    assert (STARTED : forall j g', r_prog g' = dset (job_id j) j (r_prog g1) -> r_stopping g' = false -> r_max g' = r_max g1 -> r_void g' = r_void g1 ->
       y = start_job job_id job_b job_w j (with_ring g' z) ->
       core_of m v (n + 1) y /\ view (res ++ []) y /\ (u_presenter y = None <-> u_presenter x = None)).
    { intros j g' A1 A2 A3 A4 ->. split.
      - exact (core_start m v (n + 1) g1 g' (u_reason z) (u_log z) (job_id j) (job_b j) (job_w j) j KA SZ LA A1 A2 A3 A4).
      - apply (GP (es ++ [LStart (job_id j) (job_b j) (job_w j)])). refine (grows_trans _ z _ _ [] _ [] G _).
        refine (grows_trans z (with_ring g' z) _ [] [] _ [] (grows_refl _ _ eq_refl eq_refl eq_refl) (grows_log (LStart (job_id j) (job_b j) (job_w j)) _ eq_refl)). }
    destruct (r_replay g1) as [|kv rest] eqn:RP.
    - destruct (c_get comp (r_comp g1)) as [c [[j|]|e]]; [| |discriminate].
      + destruct (dmem (job_id j) (r_prog (with_comp c g1))) eqn:DM; [discriminate|]. injection E as <- _.
        refine (STARTED j _ _ _ _ _ eq_refl); try reflexivity. exact SZ.
      + injection E as <- _. split.
        * refine (core_ring _ _ _ g1 _ _ _ KA _ _ _ _); reflexivity.
        * apply (GP (es ++ [])). refine (grows_trans _ z _ _ [] _ [] G _). apply grows_refl; reflexivity.
    - destruct (nth (f_which i) (kv :: rest) kv) as [k j]. injection E as <- _.
      refine (STARTED j _ _ _ _ _ eq_refl); try reflexivity. exact SZ. }
  assert (REFL : grows x x [] []) by (apply grows_refl; reflexivity).
  destruct (f_cmd i) as [|e| |msg].
  - refine (TAIL x [] REFL (Forall_nil _) eq_refl eq_refl _). cbv zeta. rewrite S. exact E.
  - cbv zeta in E. fsts E. halting (str "stop command received") x H. destruct H as (G & E1 & E2).
    set (h := halt_run (str "stop command received") x) in *.
    assert (KH : core_of m v (n + 1) h).
    { rewrite E1, E2, (proj1 G). exact (core_halts _ _ _ _ _ _ _ _ K S). }
    destruct e as [msg|]; [|split; [exact KH|exact (GP _ _ G)]].
    pose proof (grows_warn (LWarning (str "error removing .cmd file:" ++ [char_lf] ++ msg)) h eq_refl) as G2. split.
    + rewrite ring_warn, reason_warn, (proj1 G2). apply core_quiet; [exact KH|apply quiet_one].
    + exact (GP _ _ (grows_trans _ _ _ _ _ _ _ G G2)).
  - refine (TAIL x [] REFL (Forall_nil _) eq_refl eq_refl _). cbv zeta. rewrite S. exact E.
  - refine (TAIL _ _ (grows_warn (LWarning (str "error reading .cmd file:" ++ [char_lf] ++ msg)) x eq_refl) (quiet_one _) _ _ E);
      [apply ring_warn|apply reason_warn].
Qed.

Lemma get_proof m v n res i x y a : core_of m v n x -> view res x -> next_job i x = (y, Ok a) ->
  core_of m v (n + 1) y /\ view res y /\ (u_presenter y = None <-> u_presenter x = None) /\
  exists z, y = display z /\ core_of m v (n + 1) z /\ view res z.
Proof.
  intros K V E. unfold RunLogModel.next_job in E. destruct (try_job i x) as [z [o|e]] eqn:T; [|discriminate]. injection E as <- _.
  destruct (try_proof m v n res i x z o K V T) as (KZ & VZ & PZ). destruct (display_grows z) as (G & E1 & E2 & E3 & E4 & E5).
  split; [|split; [|split]].
  - rewrite E1, (proj1 G), app_nil_r. refine (core_ring _ _ _ (u_ring z) _ _ _ KZ _ _ _ _); assumption.
  - rewrite <- (app_nil_r res). exact (view_grows _ _ _ _ _ VZ G).
  - rewrite <- PZ. destruct G as [_ G]. destruct (u_presenter z), (u_presenter (display z)); try contradiction; split; congruence.
  - exists z. split; [reflexivity|split; assumption].
Qed.

Definition response_line (r : R) (x : run C J) : bytes :=
  str "game " ++ response_id r ++ str ": " ++ match result_text r (r_comp (u_ring x)) with Some t => t | None => describe r end.

Lemma response_proof m v n res f r x d y ds : core_of m v n x -> view res x -> response f r x d = (y, ds, Ok tt) ->
  core_of m v n y /\ view (res ++ [response_line r x]) y /\ (u_presenter y = None <-> u_presenter x = None).
Proof.
  intros K V E. unfold RunLogModel.response in E. cbv zeta in E.
  destruct (warns_fold (warnings_from r) (log (LResponse (response_id r)) x)) as (G1 & A1 & B1).
  set (x2 := fold_left (fun x t => warn (LWarning t) x) (warnings_from r) (log (LResponse (response_id r)) x)) in *.
  destruct (notes_fold (notes_from r) x2) as (G2 & A2 & B2).
  set (x3 := fold_left (fun x t => log (LNote t) x) (notes_from r) x2) in *.
  assert (R3 : u_ring x3 = u_ring x) by (rewrite A2, A1; reflexivity).
  assert (S3 : u_reason x3 = u_reason x) by (rewrite B2, B1; reflexivity).
  assert (G : grows x x3 ([LResponse (response_id r)] ++ map LWarning (warnings_from r) ++ map LNote (notes_from r)) []).
  { exact (grows_trans _ _ _ _ [] _ [] (grows_log (LResponse (response_id r)) x eq_refl) (grows_trans _ _ _ _ _ _ _ G1 G2)). }
  rewrite R3 in E. destruct (c_result comp r (r_comp (u_ring x))) as [c [[]|e]]; [|discriminate].
  destruct (dmem (response_id r) (r_prog (with_comp c (u_ring x)))) eqn:DM; [|discriminate].
  set (g2 := with_games (ddel (response_id r) (r_prog (with_comp c (u_ring x)))) (r_replay (with_comp c (u_ring x))) (with_comp c (u_ring x))) in *.
  destruct (write_status comp f g2 d) as [ds' [[]|e]]; [|discriminate].
  pose proof (f_equal (fun t => fst (fst t)) E) as Y; cbn [fst] in Y; fold (response_line r x) in Y; subst y; clear E.
  pose proof (grows_result (response_line r x) (with_ring g2 x3)) as G3.
  pose proof (grows_trans _ _ _ _ _ _ _ G (grows_trans _ _ _ _ _ _ _ (grows_refl x3 (with_ring g2 x3) eq_refl eq_refl eq_refl) G3)) as GG.
  cbn [app] in GG. rewrite app_nil_r in GG. split; [|split].
  - rewrite ring_say, reason_say. cbn [with_ring u_ring u_reason]. rewrite S3, (proj1 GG).
    change (LResponse (response_id r) :: map LWarning (warnings_from r) ++ map LNote (notes_from r))
      with ([LResponse (response_id r)] ++ map LWarning (warnings_from r) ++ map LNote (notes_from r)). rewrite app_assoc.
    apply core_quiet.
    + refine (core_end m v n (u_ring x) g2 _ _ (response_id r) _ K (or_introl eq_refl) DM eq_refl eq_refl eq_refl _).
      change (voids [LResponse (response_id r)]) with 0. cbn. lia.
    + apply Forall_app. split; apply Forall_forall; intros e' I; apply in_map_iff in I; destruct I as (t & <- & _); exact I.
  - exact (view_grows _ _ _ _ _ V GG).
  - destruct GG as [_ GG]. destruct (u_presenter x), (u_presenter _); try contradiction; split; congruence.
Qed.

Lemma error_proof m v n res f j msg x d y ds : core_of m v n x -> view res x -> error_response f j msg x d = (y, ds, Ok tt) ->
  core_of m v n y /\ view res y /\ (u_presenter y = None <-> u_presenter x = None).
Proof.
  intros K V E. unfold RunLogModel.error_response in E. cbv zeta in E.
  assert (G1 : grows x (warn (LVoid (job_id j) msg) x) [LVoid (job_id j) msg] []) by (apply grows_warn; reflexivity).
  set (x1 := warn (LVoid (job_id j) msg) x) in *.
  assert (R1 : u_ring x1 = u_ring x) by apply ring_warn. assert (S1 : u_reason x1 = u_reason x) by apply reason_warn.
  rewrite R1 in E. cbn [r_errors r_comp] in E.
  set (prev := match dget (job_id j) (r_errors (u_ring x)) with Some n => n | None => 0 end) in *.
  destruct (c_error comp j prev (r_comp (u_ring x))) as [c [[stop retry]|e]]; [|discriminate].
  cbn [with_comp r_comp r_void r_prog r_replay r_errors r_stopping r_max] in E.
  destruct (dget (job_id j) (r_prog (u_ring x))) as [j'|] eqn:DG; [|discriminate].
  match type of E with context [write_status comp f ?g d] => set (g3 := g) in * end.
  assert (P3 : r_prog g3 = ddel (job_id j) (r_prog (u_ring x)) /\ r_stopping g3 = r_stopping (u_ring x) /\ r_max g3 = r_max (u_ring x) /\ r_void g3 = r_void (u_ring x) + 1).
  { unfold g3. destruct (retry && negb stop); repeat split. }
  destruct P3 as (P1 & P2 & P3 & P4).
  assert (K3 : core m v n g3 (u_reason x) (u_log x ++ [LVoid (job_id j) msg])).
  { refine (core_end m v n (u_ring x) g3 _ _ (job_id j) _ K (or_intror (ex_intro _ msg eq_refl)) _ P1 P2 P3 P4). unfold dmem. rewrite DG. reflexivity. }
  destruct (write_status comp f g3 d) as [ds' [[]|e]]; [|discriminate].
  pose proof (f_equal (fun t => fst (fst t)) E) as Y; cbn [fst] in Y; subst y; clear E. rewrite <- (app_nil_r res).
  destruct (stop && negb (r_stopping g3)) eqn:H.
  - apply andb_true_iff in H. destruct H as [_ H]. apply negb_true_iff in H.
    set (z := say Warnings (str "halting run due to void games") (with_ring g3 x1)).
    assert (G2 : grows (with_ring g3 x1) (halt_run (str "too many void games") z) [LHalt (str "too many void games")] []).
    { apply (grows_warned _ (str "halting run due to void games")); [reflexivity| | |];
        unfold z, halt_run, say, log; cbn [u_presenter u_log u_shown u_ring u_reason with_ring];
        destruct (p_say Warnings (str "halting run due to void games") (u_presenter x1)); reflexivity. }
    pose proof (grows_trans _ _ _ _ _ _ _ G1 (grows_trans _ _ _ _ _ _ _ (grows_refl x1 (with_ring g3 x1) eq_refl eq_refl eq_refl) G2)) as GG.
    cbn [app] in GG. split; [|split].
    + rewrite (proj1 GG). change [LVoid (job_id j) msg; LHalt (str "too many void games")] with ([LVoid (job_id j) msg] ++ [LHalt (str "too many void games")]).
      rewrite app_assoc. assert (UR : u_ring (halt_run (str "too many void games") z) = halt g3).
      { unfold halt_run, log. cbn [u_ring]. unfold z. rewrite ring_say. reflexivity. }
      rewrite UR. exact (core_halts _ _ _ _ _ _ _ _ K3 H).
    + exact (view_grows _ _ _ _ _ V GG).
    + destruct GG as [_ GG]. destruct (u_presenter x), (u_presenter (halt_run _ _)); try contradiction; split; congruence.
  - pose proof (grows_trans _ _ _ _ _ _ _ G1 (grows_refl x1 (with_ring g3 x1) eq_refl eq_refl eq_refl)) as GG. rewrite !app_nil_r in GG.
    split; [|split].
    + cbn [with_ring u_ring u_reason u_log]. rewrite S1, (proj1 G1). exact K3.
    + exact (view_grows _ [] _ _ _ V GG).
    + destruct GG as [_ GG]. destruct (u_presenter x), (u_presenter (with_ring g3 x1)); try contradiction; split; congruence.
Qed.

(** ** Histories *)
Lemma step_proof m v n res o s s' a : core_of m v n (fst s) -> view res (fst s) -> step o s = (s', Ok a) ->
  core_of m v (n + gets [o]) (fst s') /\
  view (res ++ match o with OResponse _ r => [response_line r (fst s)] | _ => [] end) (fst s') /\
  (u_presenter (fst s') = None <-> u_presenter (fst s) = None).
Proof.
  intros K V E. destruct o as [i|f r|f j msg]; unfold RunLogModel.step in E.
  - destruct (next_job i (fst s)) as [y b] eqn:N. injection E as <- ->. cbn [fst].
    destruct (get_proof _ _ _ _ _ _ _ _ K V N) as (KY & VY & PY & _). rewrite app_nil_r. split; [exact KY|split; assumption].
  - destruct (response f r (fst s) (snd s)) as [[y ds] [[]|e]] eqn:N; [|discriminate]. injection E as <- _. cbn [fst].
    change (gets [OResponse f r]) with 0. rewrite Z.add_0_r. exact (response_proof _ _ _ _ _ _ _ _ _ _ K V N).
  - destruct (error_response f j msg (fst s) (snd s)) as [[y ds] [[]|e]] eqn:N; [|discriminate]. injection E as <- _. cbn [fst].
    change (gets [OError f j msg]) with 0. rewrite Z.add_0_r, app_nil_r. exact (error_proof _ _ _ _ _ _ _ _ _ _ _ K V N).
Qed.

Lemma steps_proof m v os : forall n res s s', core_of m v n (fst s) -> view res (fst s) -> steps os s = Some s' ->
  core_of m v (n + gets os) (fst s') /\ view (res ++ results_of os s) (fst s') /\ (u_presenter (fst s') = None <-> u_presenter (fst s) = None).
Proof.
  induction os as [|o os IH]; intros n res s s' K V E; cbn [RunLogModel.steps] in E.
  - injection E as <-. change (gets []) with 0. rewrite Z.add_0_r. cbn [RunLogSpec.results_of]. rewrite app_nil_r. split; [exact K|split; [exact V|reflexivity]].
  - destruct (step o s) as [s1 [a|e]] eqn:S; [|discriminate].
    destruct (step_proof _ _ _ _ _ _ _ _ K V S) as (K1 & V1 & P1).
    destruct (IH _ _ _ _ K1 V1 E) as (K2 & V2 & P2). split; [|split].
    + replace (n + gets (o :: os)) with (n + gets [o] + gets os); [exact K2|].
      unfold gets. change (o :: os) with ([o] ++ os). rewrite filter_app, app_length. lia.
    + cbn [RunLogSpec.results_of]. rewrite S. cbn [fst]. rewrite app_assoc. exact V2.
    + rewrite P2. exact P1.
Qed.

(** The start of a run. *)
Lemma open_proof quiet now m g : loaded g -> r_max g = m ->
  core_of m (r_void g) 0 (open_run quiet now m g) /\ view [] (open_run quiet now m g) /\
  (u_presenter (open_run quiet now m g) = None <-> quiet = true) /\
  u_log (open_run quiet now m g) = [LRun now m] ++ match workers with Some n => [LWorkers n] | None => [] end.
Proof.
  intros (P & RP & S) M. unfold RunLogModel.open_run.
  set (l := [LRun now m] ++ match workers with Some n => [LWorkers n] | None => [] end).
  set (x := mkRun g [] l (if quiet then None else Some no_boxes) []).
  assert (Q : Forall quiet_entry l) by (unfold l; destruct workers; repeat constructor).
  destruct (quiet_plain l Q) as (PL & HF & SF & S0 & V0).
  assert (W0 : warnings_of l = []) by (unfold l; destruct workers; reflexivity).
  assert (KX : core_of m (r_void g) 0 x).
  { constructor; unfold x; cbn [u_ring u_log u_reason].
    - intros id. rewrite P. split; [discriminate|]. intros O. destruct (plain_closed l id PL O).
    - rewrite P. constructor.
    - rewrite S. exact HF.
    - intros _. rewrite M. destruct m; cbn [option_map]; [f_equal; lia|reflexivity].
    - intros k E Z. exists k. rewrite M, S0. split; [exact E|]. split; [exact Z|lia].
    - rewrite V0. lia. }
  assert (VX : view [] x).
  { unfold view, x. cbn [u_presenter u_log u_shown]. rewrite W0. destruct quiet; repeat split. }
  destruct (display_grows x) as (G & E1 & E2 & E3 & E4 & E5). split; [|split; [|split]].
  - rewrite E1, (proj1 G), app_nil_r. refine (core_ring _ _ _ (u_ring x) _ _ _ KX _ _ _ _); assumption.
  - exact (view_grows _ [] _ _ _ VX G).
  - destruct G as [_ G]. unfold x in G |- *. cbn [u_presenter] in G. destruct quiet; destruct (u_presenter (display _)); try contradiction; split; congruence.
  - rewrite (proj1 G), app_nil_r. reflexivity.
Qed.
End Run.
