(** The end of a game job: closing the engines, the response, the error (C62). *)
From Verif Require Import Base Bytes PyStr Dict BoardModel BoardSpec CommonModel GameplayModel GameplaySpec GameplayProps
  ControllerModel ControllerSpec ControllerProofs
  GtpGameModel GtpGameSpec EngineModel EngineSpec EngineDialogueProofs SgfTreeModel GameSgfModel JobSgfModel JobSgfSpec JobSgfProofs JobPlayedProofs
  JobRunModel JobRunSpec JobKeptProofs JobLiveProofs JobTalkProofs JobStonesProofs JobBodyProofs.

Lemma reached_errors {X} (ch : channel X) k : reached ch k -> exists texts, Forall2 (message_about (c_name k)) (c_errors k) texts.
Proof.
  intros (x & name & os & rs & A). remember (new_controller (x, []) name) as k0 eqn:E0.
  assert (c_errors k0 = []) as N0 by (subst; reflexivity). clear E0.
  induction A as [|os c1 rs o c2 r A IH P].
  - exists []. rewrite N0. constructor.
  - destruct IH as (ts & F). destruct (effect_any ch o c1 c2 r P) as (evs & Ef).
    destruct (ef_errors _ _ _ _ Ef) as (new & E & F2). rewrite E, (ef_name _ _ _ _ Ef). eexists. apply Forall2_app; [exact F|exact F2].
Qed.

Lemma cres_ret {A} (r : cres A) : (exists u, r = CRet u) \/ (forall u, r <> CRet u).
Proof. destruct r; [left; eauto|right; discriminate..]. Qed.

Section End.
Context {X : Type} (ch : colour -> channel X).
Variables (sanitise : bytes -> bytes) (pick : nat -> nat) (os_environ : dict bytes).
Variable spawn : colour -> list bytes -> dict bytes -> option bytes -> X + bytes.
Variable usage : colour -> X * list cevent -> option pfloat.
Variable error_text : gtp_game (X * list cevent) -> exn -> bytes.
Variables (version today : bytes) (cpu_text : pfloat -> bytes) (now : bytes).
Variable j : game_job.
Variable worker : option Z.
Notation ctl := (controller (X * list cevent)).
Notation gc := (gctl (X * list cevent)).
Notation chr := (fun c => recorded (ch c)).
Notation run_s := (running (X * list cevent)).

(** What closing does to one engine's controller. *)
Record shut (c : colour) (k k' : ctl) : Prop := mkShut {
  sh_reached : reached (ch c) k';
  sh_name : c_name k' = c_name k;
  sh_trace : prefix_of (trace k) (trace k');
  sh_sent : exists q, sent (trace k') = sent (trace k) ++ q /\ (q = [] \/ q = [(meaning (c_aliases k) (str "quit"), [])])
}.
Definition is_shut (k' : ctl) : Prop := c_closed k' = true /\ closed_once (trace k').

Lemma shut_refl c k : live (ch c) k -> shut c k k.
Proof.
  intros (R & _). constructor; [exact R|reflexivity|apply prefix_refl|]. exists []. rewrite app_nil_r. auto.
Qed.

Lemma close_one_player c (g g' : gc) r : (forall k, g_get c g = Some k -> live (ch c) k) -> close_player chr c g = (g', r) ->
  (forall d, d <> c -> g_get d g' = g_get d g) /\ g_code_b g' = g_code_b g /\ g_code_w g' = g_code_w g /\
  (g_get c g = None -> g' = g /\ r = CRet tt) /\
  (forall k, g_get c g = Some k -> exists k', g_get c g' = Some k' /\ shut c k k' /\
     (forall u, r = CRet u -> is_shut k' /\ g_late g' = g_late g ++ c_errors k')).
Proof.
  intros L H. unfold close_player in H. destruct (g_get c g) as [k|] eqn:G.
  2:{ injection H as <- <-. split; [reflexivity|]. split; [reflexivity|]. split; [reflexivity|]. split; [auto|discriminate]. }
  destruct (safe_close (recorded (ch c)) k) as [k' r'] eqn:S.
  destruct (closing (ch c) k k' r' (L k eq_refl) S) as (R & N & A & Q & Cl).
  destruct (effect_safe_close (ch c) k k' r' S) as (evs & Ef & _ & _).
  assert (Sh : shut c k k') by (constructor; [exact R|exact N|exists evs; exact (ef_trace _ _ _ _ Ef)|exact Q]).
  assert (Bad : (forall u, r' <> CRet u) -> (g_put c k' g, r') = (g', r) ->
    (forall d, d <> c -> g_get d g' = g_get d g) /\ g_code_b g' = g_code_b g /\ g_code_w g' = g_code_w g /\
    (Some k = None -> g' = g /\ r = CRet tt) /\
    (forall k0, Some k = Some k0 -> exists k', g_get c g' = Some k' /\ shut c k0 k' /\
       (forall u, r = CRet u -> is_shut k' /\ g_late g' = g_late g ++ c_errors k'))).
  { intros NR E. injection E as <- <-. split; [intros d Nd; apply get_other; exact Nd|]. split; [destruct c; reflexivity|].
    split; [destruct c; reflexivity|]. split; [discriminate|]. intros k0 E0. injection E0 as <-. exists k'. split; [apply get_it|].
    split; [exact Sh|]. intros u Er. elim (NR u Er). }
  destruct r' as [u|m y|kd m|e]; [|apply Bad; [discriminate|exact H]|apply Bad; [discriminate|exact H]|apply Bad; [discriminate|exact H]].
  clear Bad. injection H as <- <-. destruct (Cl u eq_refl) as (C1 & C2).
  split; [intros d Nd; destruct c, d; try reflexivity; congruence|]. split; [destruct c; reflexivity|]. split; [destruct c; reflexivity|].
  split; [discriminate|]. intros k0 E0. injection E0 as <-. exists k'. split; [destruct c; reflexivity|]. split; [exact Sh|].
  intros u0 _. split; [split; assumption|]. destruct c; reflexivity.
Qed.

Lemma close_both_players (g g' : gc) r : (forall c k, g_get c g = Some k -> live (ch c) k) -> close_players chr g = (g', r) ->
  g_code_b g' = g_code_b g /\ g_code_w g' = g_code_w g /\
  (forall c, g_get c g = None -> g_get c g' = None) /\
  (forall c k, g_get c g = Some k -> exists k', g_get c g' = Some k' /\ shut c k k' /\ (forall u, r = CRet u -> is_shut k')) /\
  (forall u, r = CRet u -> g_late g = [] -> g_late g' = late_errors g').
Proof.
  intros L H. unfold close_players in H. destruct (close_player chr Black g) as [g1 r1] eqn:B.
  destruct (close_one_player Black g g1 r1 (L Black) B) as (O1 & Cb1 & Cw1 & N1 & S1).
  assert (Late1 : forall u, r1 = CRet u -> g_late g = [] -> g_late g1 = match g_get Black g1 with Some k => c_errors k | None => [] end).
  { intros u -> E. destruct (g_get Black g) as [k|] eqn:Gk.
    - destruct (S1 k eq_refl) as (k' & G' & _ & F). destruct (F u eq_refl) as (_ & ->). rewrite G', E. reflexivity.
    - destruct (N1 eq_refl) as (-> & _). rewrite Gk. exact E. }
  destruct (cres_ret r1) as [(u & ->)|NR].
  - destruct (close_one_player White g1 g' r ltac:(intros k G; apply (L White); rewrite <- (O1 White) by discriminate; exact G) H) as (O2 & Cb2 & Cw2 & N2 & S2).
    split; [congruence|]. split; [congruence|]. split; [|split].
    + intros c G. destruct c.
      * rewrite O2 by discriminate. destruct (N1 G) as (-> & _). exact G.
      * rewrite <- (O1 White) in G by discriminate. destruct (N2 G) as (-> & _). exact G.
    + intros c k G. destruct c.
      * destruct (S1 k G) as (k' & G' & Sh & F). exists k'. rewrite O2 by discriminate. split; [exact G'|]. split; [exact Sh|].
        intros _ _. exact (proj1 (F u eq_refl)).
      * rewrite <- (O1 White) in G by discriminate. destruct (S2 k G) as (k' & G' & Sh & F). exists k'. split; [exact G'|]. split; [exact Sh|].
        intros u0 Q. exact (proj1 (F u0 Q)).
    + intros u0 Q E. pose proof (Late1 u eq_refl E) as L1. unfold late_errors. rewrite (O2 Black) by discriminate.
      destruct (g_get White g1) as [k|] eqn:Gk.
      * destruct (S2 k eq_refl) as (k' & G' & _ & F). destruct (F u0 Q) as (_ & ->). rewrite G', L1. reflexivity.
      * destruct (N2 eq_refl) as (-> & _). rewrite Gk, app_nil_r. exact L1.
  - assert ((g1, r1) = (g', r)) as E by (destruct r1 as [u| | |]; [elim (NR u eq_refl)|exact H|exact H|exact H]). injection E as <- <-.
    split; [exact Cb1|]. split; [exact Cw1|]. split; [|split].
    + intros c G. destruct c; [destruct (N1 G) as (-> & _); exact G|rewrite O1 by discriminate; exact G].
    + intros c k G. destruct c.
      * destruct (S1 k G) as (k' & G' & Sh & _). exists k'. split; [exact G'|]. split; [exact Sh|]. intros u Q. elim (NR u Q).
      * exists k. rewrite O1 by discriminate. split; [exact G|]. split; [apply shut_refl, L; exact G|]. intros u Q. elim (NR u Q).
    + intros u Q. elim (NR u Q).
Qed.

Lemma opened_live pre c k : opened ch j pre c k -> live (ch c) k.
Proof. intros [P|P]; [exact (pt_live _ _ _ _ P)|exact (cm_live _ _ _ _ _ P)]. Qed.
Lemma opened_name pre c k : opened ch j pre c k -> c_name k = player_called (gp_code (job_player j c)).
Proof. intros [P|P]; [exact (pt_name _ _ _ _ P)|exact (cm_name _ _ _ _ _ P)]. Qed.
Lemma shut_spoken pre c k k' : opened ch j pre c k -> shut c k k' -> spoken_to j c k'.
Proof.
  intros [P|P] Sh; destruct (sh_sent _ _ _ Sh) as (q & Sq & Q).
  - destruct (pt_sent _ _ _ _ P) as (d & h & Hh & Pr). exists d, h, (sent (trace k)), q. split; [exact Hh|]. split; [exact Sq|]. split; [exact Pr|].
    right. destruct Q as [->| ->]; [left; reflexivity|right]. destruct (pt_aliases _ _ _ _ P) as [->| ->]; [left; reflexivity|right; reflexivity].
  - destruct (cm_sent _ _ _ _ _ P) as (d & h & rest & Hh & E). exists d, h, (opening j c d h), (rest ++ q).
    split; [exact Hh|]. split; [rewrite Sq, E, app_assoc; reflexivity|]. split; [apply prefix_refl|]. left. reflexivity.
Qed.
Lemma opened_spoken pre c k : opened ch j pre c k -> spoken_to j c k.
Proof. intros O. eapply shut_spoken; [exact O|]. apply shut_refl. exact (opened_live _ _ _ O). Qed.

Notation body_ok := (body_ok ch sanitise pick os_environ spawn error_text j worker).
Notation spawn_fails := (spawn_fails os_environ spawn j worker).

Record closed_down (s s1 : run_s) (oe : option exn) : Prop := mkClosedDown {
  cd_rest : exists g, s1 = put_gc g s;
  cd_codes : g_code_b (rn_gc s1) = gp_code (gj_b j) /\ g_code_w (rn_gc s1) = gp_code (gj_w j);
  cd_there : forall c, g_get c (rn_gc s1) = None <-> g_get c (rn_gc s) = None;
  cd_each : forall c k, g_get c (rn_gc s1) = Some k ->
    reached (ch c) k /\ c_name k = player_called (gp_code (job_player j c)) /\ spoken_to j c k /\ (oe = None -> is_shut k) /\
    exists k0, g_get c (rn_gc s) = Some k0 /\ prefix_of (trace k0) (trace k);
  cd_late : oe = None -> g_late (rn_gc s1) = late_errors (rn_gc s1)
}.

Lemma closing_job pre s p s1 oe : body_ok pre s p -> job_close chr s = (s1, oe) -> closed_down s s1 oe.
Proof.
  intros ((Q1 & Q2 & Q3) & _ & Op & _) H. unfold job_close in H. destruct (close_players chr (rn_gc s)) as [g r] eqn:C. injection H as <- <-.
  destruct (close_both_players (rn_gc s) g r (fun c k G => opened_live _ _ _ (Op c k G)) C) as (Cb & Cw & Nn & Ss & Lt).
  assert (G1 : rn_gc (put_gc g s) = g) by reflexivity.
  assert (Ret : (match r with CRet _ => None | CBad _ _ => Some bad_gtp | CChan _ _ => Some channel_error | CExn e => Some (other_exn e) end) = None ->
                exists u, r = CRet u) by (destruct r; [eauto|discriminate..]).
  constructor.
  - exists g. reflexivity.
  - rewrite G1. split; congruence.
  - intros c. rewrite G1. split; [|apply Nn]. intros G. destruct (g_get c (rn_gc s)) as [k|] eqn:Gk; [|reflexivity].
    destruct (Ss c k Gk) as (k' & G' & _). congruence.
  - rewrite G1. intros c k' G'. destruct (g_get c (rn_gc s)) as [k|] eqn:Gk; [|rewrite (Nn c Gk) in G'; discriminate].
    destruct (Ss c k Gk) as (k2 & G2 & Sh & F). assert (k2 = k') as -> by congruence. pose proof (Op c k Gk) as O.
    split; [exact (sh_reached _ _ _ Sh)|]. split; [rewrite (sh_name _ _ _ Sh); exact (opened_name _ _ _ O)|].
    split; [exact (shut_spoken _ _ _ _ O Sh)|]. split; [|exists k; split; [reflexivity|exact (sh_trace _ _ _ Sh)]].
    intros E. destruct (Ret E) as (u & Eu). exact (F u Eu).
  - rewrite G1. intros E. destruct (Ret E) as (u & Eu). exact (Lt u Eu Q1).
Qed.

Notation run_it := (run_job chr sanitise pick os_environ (watched spawn) usage error_text version today cpu_text now j worker).

Definition same_codes_message : bytes := str "error creating game: player codes must be distinct".

Lemma run_job_cases w w' so e : run_it w = (w', so, e) ->
  (gp_code (gj_b j) = gp_code (gj_w j) /\ w' = w /\ so = None /\ e = Failed same_codes_message None) \/
  (gp_code (gj_b j) <> gp_code (gj_w j) /\ exists pre s p s', body_ok pre s p /\ so = Some s' /\
     ((exists x, p = Raised x /\ s' = s /\ e = Crashed x /\ w' = w) \/
      (exists text, p = Aborted text /\ job_abort chr version today cpu_text now j s text w = (w', s', e)) \/
      (p = Going /\ job_finish chr usage version today cpu_text now j s w = (w', s', e)))).
Proof.
  unfold run_job. intros H. destruct (new_gctl (gp_code (gj_b j)) (gp_code (gj_w j))) as [gc0|x] eqn:N.
  2:{ left. unfold new_gctl in N. destruct (bytes_eqb_spec (gp_code (gj_b j)) (gp_code (gj_w j))) as [E|]; [|discriminate N].
      injection H as <- <- <-. auto. }
  right. split; [unfold new_gctl in N; destruct (bytes_eqb_spec (gp_code (gj_b j)) (gp_code (gj_w j))) as [E|NE]; [discriminate N|exact NE]|].
  match type of H with context [job_body ?a ?b ?c ?d ?f ?g ?h ?i ?k] => destruct (job_body a b c d f g h i k) as [s p] eqn:B end.
  destruct (body_proof ch sanitise pick os_environ spawn error_text j worker gc0 s p N B) as (pre & O). exists pre, s, p. destruct p as [|text|x].
  - destruct (job_finish chr usage version today cpu_text now j s w) as [[w1 s1] r] eqn:F. injection H as <- <- <-. exists s1. split; [exact O|]. split; [reflexivity|]. right. right. split; reflexivity.
  - destruct (job_abort chr version today cpu_text now j s text w) as [[w1 s1] r] eqn:F. injection H as <- <- <-. exists s1. split; [exact O|]. split; [reflexivity|]. right. left. eauto.
  - injection H as <- <- <-. exists s. split; [exact O|]. split; [reflexivity|]. left. eauto.
Qed.

(** The message of an aborted game. *)
Definition aborting (text : bytes) : bytes := str "aborting game due to error:" ++ [char_lf] ++ text.
Definition with_late (msg : bytes) (l : list bytes) : bytes :=
  match l with [] => msg | _ => msg ++ [char_lf] ++ str "also:" ++ [char_lf] ++ lines l end.

Lemma abort_cases pre s p text w w' s' e : body_ok pre s p -> job_abort chr version today cpu_text now j s text w = (w', s', e) ->
  exists oe, closed_down s s' oe /\
    match oe with
    | Some x => e = Crashed x /\ w' = w
    | None => (exists x, job_record_void version today cpu_text now j s' (aborting text) w = (w', Err x) /\ e = Crashed x) \/
              (exists file, job_record_void version today cpu_text now j s' (aborting text) w = (w', Ok file) /\
                 e = Failed (with_late (aborting text) (late_errors (rn_gc s'))) file)
    end.
Proof.
  intros O H. unfold job_abort in H. destruct (job_close chr s) as [s1 oe] eqn:C. pose proof (closing_job _ _ _ _ _ O C) as CD.
  destruct oe as [x|].
  - injection H as <- <- <-. exists (Some x). auto.
  - cbv zeta in H. fold (aborting text) in H.
    destruct (job_record_void version today cpu_text now j s1 (aborting text) w) as [w1 [file|x]] eqn:V.
    + assert (w' = w1 /\ s' = s1 /\ e = Failed (match describe_late_errors (rn_gc s1) with
        | Some late => aborting text ++ [char_lf] ++ str "also:" ++ [char_lf] ++ late | None => aborting text end) file) as (-> & -> & ->)
        by (split; [exact (eq_sym (f_equal (fun x => fst (fst x)) H))|split; [exact (eq_sym (f_equal (fun x => snd (fst x)) H))|exact (eq_sym (f_equal snd H))]]).
      exists None. split; [exact CD|]. right. exists file. split; [exact V|]. f_equal.
      unfold describe_late_errors, with_late. rewrite (cd_late _ _ _ CD eq_refl). destruct (late_errors (rn_gc s1)) as [|a l]; [reflexivity|].
      rewrite lines_join. reflexivity.
    + assert (w' = w1 /\ s' = s1 /\ e = Crashed x) as (-> & -> & ->) by (split; [|split]; congruence).
      exists None. split; [exact CD|]. left. eauto.
Qed.

Lemma finish_cases pre s p w w' s' e : body_ok pre s p -> job_finish chr usage version today cpu_text now j s w = (w', s', e) ->
  (ga_result (rn_game s) = None /\ s' = s /\ e = Crashed AttributeError) \/
  exists gr s1 oe, ga_result (rn_game s) = Some gr /\ closed_down s s1 oe /\
    match oe with
    | Some x => s' = s1 /\ e = Crashed x
    | None =>
        (ga_cpu_errors (rn_game s) = None /\ s' = s1 /\ e = Crashed TypeError) \/
        exists eb ew gr', ga_cpu_errors (rn_game s) = Some (eb, ew) /\
          gr' = soft_update_cpu_times (if eb then None else Some (resource_time usage Black (rn_gc s1)))
                                      (if ew then None else Some (resource_time usage White (rn_gc s1))) gr /\
          s' = mkRunning (GtpGameModel.mkGame (ga_runner (rn_game s1)) (ga_backend (rn_game s1)) (ga_id (rn_game s1)) (Some gr') (ga_cpu_errors (rn_game s1))) (rn_b s1) (rn_w s1) /\
          ((exists x, job_record_finished version today cpu_text now j s' w = (w', Err x) /\ e = Crashed x) \/
           exists file, job_record_finished version today cpu_text now j s' w = (w', Ok file) /\
             e = Finished (mkResponse (gj_id j) gr'
                   (if r_forfeit (gr_base gr) then match r_detail (gr_base gr) with Some d => [d] | None => [str "None"] end else [])
                   (match describe_late_errors (rn_gc s1) with Some (c :: r) => [c :: r] | _ => [] end)
                   (dset (gp_code (gj_w j)) (rn_w s) (dset (gp_code (gj_b j)) (rn_b s) []))) file)
    end.
Proof.
  intros O H. unfold job_finish in H. destruct (ga_result (rn_game s)) as [gr|] eqn:Er.
  2:{ injection H as <- <- <-. left. auto. }
  right. cbv zeta in H. destruct (job_close chr s) as [s1 oe] eqn:C. pose proof (closing_job _ _ _ _ _ O C) as CD.
  exists gr, s1, oe. split; [reflexivity|]. split; [exact CD|]. destruct (cd_rest _ _ _ CD) as (g & E1).
  destruct oe as [x|]; [injection H as <- <- <-; auto|].
  assert (Ec : ga_cpu_errors (rn_game s1) = ga_cpu_errors (rn_game s)) by (rewrite E1; reflexivity).
  assert (Eb : rn_b s1 = rn_b s) by (rewrite E1; reflexivity). assert (Ew : rn_w s1 = rn_w s) by (rewrite E1; reflexivity).
  destruct (ga_cpu_errors (rn_game s1)) as [[eb ew]|] eqn:Ece.
  2:{ left. split; [congruence|]. injection H as <- <- <-. auto. }
  right. exists eb, ew. eexists. split; [congruence|]. split; [reflexivity|].
  match type of H with context [job_record_finished ?a ?b ?c ?d ?f ?g ?h] => set (s2 := g) in *; destruct (job_record_finished a b c d f s2 h) as [w1 [file|x]] eqn:F end.
  - injection H as <- <- <-. split; [reflexivity|]. right. exists file. split; [exact F|]. cbn [rn_b rn_w s2]. rewrite Eb, Ew. reflexivity.
  - injection H as <- <- <-. split; [reflexivity|]. left. exists x. split; [exact F|reflexivity].
Qed.

Lemma run_result (g0 g1 : gtp_game (X * list cevent)) n out gr : ga_result g0 = None ->
  run_gtp_game chr sanitise pick None n g0 = (g1, out) -> ga_result g1 = Some gr ->
  gr_id gr = ga_id g0 /\ exists x cb cw, gr_base gr = gr_base (set_players x cb cw) /\ gr_player_b gr = cb /\ gr_player_w gr = cw /\
    cb = g_code_b (gb_gc (ga_backend g1)) /\ cw = g_code_w (gb_gc (ga_backend g1)).
Proof.
  intros N H Gr. unfold run_gtp_game in H.
  destruct (run (gtp_backend chr sanitise pick None) n pick (ga_runner g0) (ga_backend g0)) as [[r1 s1] [u|e]].
  2:{ injection H as <- <-. cbn in Gr. congruence. }
  destruct (ru_result r1) as [x|]; [|injection H as <- <-; cbn in Gr; congruence]. cbv zeta in H.
  pose proof (JobPlayedProofs.times_codes chr (gb_gc s1)) as T.
  destruct (get_gtp_cpu_times chr (gb_gc s1)) as [gc2 [[[tb eb] [tw ew]]|m y|kd m|e]]; injection H as <- <-; cbn [ga_result] in Gr;
    cbn [fst] in T; unfold JobPlayedProofs.codes in T; injection T as T1 T2;
    injection Gr as <-; (split; [reflexivity|]);
    exists x, (g_code_b (gb_gc s1)), (g_code_w (gb_gc s1)); cbn [soft_update_cpu_times set_players gr_base gr_player_b gr_player_w ga_backend with_gc gb_gc];
    repeat (split; [reflexivity|]); auto.
Qed.

Lemma forfeit_detail x cb cw : r_forfeit (gr_base (set_players x cb cw)) = true -> exists d, r_detail (gr_base (set_players x cb cw)) = Some d.
Proof. cbn [set_players gr_base r_forfeit r_detail]. intros ->. eexists. reflexivity. Qed.

Lemma late_nonempty s s1 oe a l : closed_down s s1 oe -> late_errors (rn_gc s1) = a :: l -> exists c r, lines (a :: l) = c :: r.
Proof.
  intros CD E. assert (In a (late_errors (rn_gc s1))) as I by (rewrite E; left; reflexivity).
  assert (exists c r, a = c :: r) as (c & r & ->).
  { assert (forall c k, g_get c (rn_gc s1) = Some k -> In a (c_errors k) -> exists x r, a = x :: r) as Each.
    { intros c k G Ia. destruct (cd_each _ _ _ CD c k G) as (R & _). destruct (reached_errors (ch c) k R) as (ts & F).
      clear -F Ia. revert Ia. induction F as [|m t ms ts (what & M) F IH]; intros Ia; [destruct Ia|]. destruct Ia as [<-|Ia]; [|auto].
      rewrite M. destruct what as [|x what]; [|eexists _, _; reflexivity]. destruct (c_name k) as [|x nm]; eexists _, _; reflexivity. }
    unfold late_errors in I. apply in_app_or in I. destruct I as [I|I].
    - destruct (g_get Black (rn_gc s1)) as [k|] eqn:G; [exact (Each Black k G I)|destruct I].
    - destruct (g_get White (rn_gc s1)) as [k|] eqn:G; [exact (Each White k G I)|destruct I]. }
  destruct l as [|b l]; [exists c, r; reflexivity|]. cbn [lines app]. eauto.
Qed.

Lemma introduced_longer t t' e : introduced sanitise t e -> prefix_of t t' -> introduced sanitise t' e.
Proof.
  intros (e1 & e2 & e3 & e4 & e5 & rest & -> & I) (m & ->). exists e1, e2, e3, e4, e5, (rest ++ m). split; [|exact I].
  rewrite <- !app_assoc. reflexivity.
Qed.

Lemma game_set_up s out g0 stones kb kw : game_from ch sanitise pick j s out g0 stones kb kw -> set_up_for ch j g0 stones /\
  run_gtp_game chr sanitise pick None (fuel j) g0 = (rn_game s, out).
Proof.
  intros (A & B & C & D & E & F & G & H & I & J & K). split; [|exact K]. constructor; auto.
  intros kb' kw' Gb Gw. assert (kb' = kb) as -> by congruence. assert (kw' = kw) as -> by congruence. exact I.
Qed.

Lemma finished_proof62 w w' so r file : run_it w = (w', so, Finished r file) ->
  gp_code (gj_b j) <> gp_code (gj_w j) /\
  exists s g0 g1 stones kb kw en_b en_w, so = Some s /\ set_up_for ch j g0 stones /\
    run_gtp_game chr sanitise pick None (fuel j) g0 = (g1, Ok tt) /\
    g_get Black (rn_gc s) = Some kb /\ g_get White (rn_gc s) = Some kw /\
    ga_runner (rn_game s) = ga_runner g1 /\ ga_result (rn_game s) = Some (rp_result r) /\
    gb_raw (rn_backend s) = gb_raw (ga_backend g1) /\
    gb_internal (rn_backend s) = gb_internal (ga_backend g1) /\ ga_id (rn_game s) = ga_id g1 /\
    g_code_b (rn_gc s) = gp_code (gj_b j) /\ g_code_w (rn_gc s) = gp_code (gj_w j) /\
    rp_id r = gj_id j /\ timed usage g1 (fun c => c_chan (match c with Black => kb | White => kw end)) (rp_result r) /\
    gr_id (rp_result r) = Some (gj_id j) /\ gr_player_b (rp_result r) = gp_code (gj_b j) /\ gr_player_w (rp_result r) = gp_code (gj_w j) /\
    warnings_of (rp_result r) (rp_warnings r) /\
    g_late (rn_gc s) = late_errors (rn_gc s) /\
    rp_log r = match late_errors (rn_gc s) with [] => [] | l => [lines l] end /\
    introduced sanitise (trace kb) en_b /\ introduced sanitise (trace kw) en_w /\ rn_b s = Some en_b /\ rn_w s = Some en_w /\
    rp_engines r = dset (gp_code (gj_w j)) (Some en_w) (dset (gp_code (gj_b j)) (Some en_b) []) /\
    job_record_finished version today cpu_text now j s w = (w', Ok file).
Proof.
  intros H. destruct (run_job_cases _ _ _ _ H) as [(_ & _ & _ & Q)|(NE & pre & s & p & s' & O & -> & C)]; [discriminate Q|].
  split; [exact NE|]. destruct C as [(x & _ & _ & Q & _)|[(text & _ & A)|(-> & F)]]; [discriminate Q| |].
  { destruct (abort_cases _ _ _ _ _ _ _ _ O A) as ([x|] & _ & B); [destruct B as (Q & _); discriminate Q|].
    destruct B as [(x & _ & Q)|(f & _ & Q)]; discriminate Q. }
  destruct (finish_cases _ _ _ _ _ _ _ O F) as [(_ & _ & Q)|(gr & s1 & oe & Er & CD & M)]; [discriminate Q|].
  destruct oe as [x|]; [destruct M as (_ & Q); discriminate Q|].
  destruct M as [(_ & _ & Q)|(eb & ew & gr' & Ec & Egr & Es & [(x & _ & Q)|(f & Rec & Q)])]; [discriminate Q|discriminate Q|].
  destruct O as (Qu & Std & Op & [(NG & _)|(out & (Fd & Th & g0 & stones & kb0 & kw0 & GF) & Eo)]); [congruence|].
  assert (out = Ok tt) as ->.
  { destruct out as [[]|x]; [reflexivity|]. unfold of_res_unit in Eo. destruct (is_gtp_error x); discriminate Eo. }
  destruct (game_set_up _ _ _ _ _ _ GF) as (SU & Run).
  destruct (cd_rest _ _ _ CD) as (gcl & E1).
  assert (Gc' : rn_gc s' = rn_gc s1) by (rewrite Es; reflexivity).
  assert (Each : forall c, exists k en, g_get c (rn_gc s') = Some k /\ introduced sanitise (trace k) en /\ rn_engine c s = Some en).
  { intros c. destruct (Fd c) as (en & Een & Ien). destruct (Th c) as (k & Gk & Pk).
    destruct (g_get c (rn_gc s1)) as [k1|] eqn:G1.
    - exists k1, en. rewrite Gc'. split; [exact G1|]. split; [|exact Een]. destruct (cd_each _ _ _ CD c k1 G1) as (_ & _ & _ & _ & k0 & G0 & P0).
      assert (k0 = k) as -> by congruence. eapply introduced_longer; [eapply introduced_longer; [exact Ien|exact Pk]|exact P0].
    - exfalso. apply (cd_there _ _ _ CD) in G1. congruence. }
  destruct (Each Black) as (kb & en_b & Gb & Ib & Eb). destruct (Each White) as (kw & en_w & Gw & Iw & Ew). cbn [rn_engine] in Eb, Ew.
  destruct (run_result g0 (rn_game s) _ _ gr (su_unplayed _ _ _ _ SU) Run Er) as (Eid & x & cb & cw & Base & Pb & Pw & Ecb & Ecw).
  destruct Qu as (Ql & Qb & Qw). unfold rn_gc, rn_backend in Qb, Qw. rewrite Qb in Ecb. rewrite Qw in Ecw.
  assert (Base' : gr_base gr' = gr_base gr) by (rewrite Egr; reflexivity).
  assert (r = mkResponse (gj_id j) gr' (if r_forfeit (gr_base gr) then match r_detail (gr_base gr) with Some d => [d] | None => [str "None"] end else [])
                   (match describe_late_errors (rn_gc s1) with Some (c :: r) => [c :: r] | _ => [] end)
                   (dset (gp_code (gj_w j)) (rn_w s) (dset (gp_code (gj_b j)) (rn_b s) [])) /\ file = f) as (Eresp & ->)
    by (split; [exact (f_equal (fun x => match x with Finished r _ => r | _ => r end) Q)|exact (f_equal (fun x => match x with Finished _ f => f | _ => f end) Q)]).
  assert (Rr : rp_result r = gr') by (rewrite Eresp; reflexivity).
  exists s', g0, (rn_game s), stones, kb, kw, en_b, en_w. split; [reflexivity|]. split; [exact SU|]. split; [exact Run|]. split; [exact Gb|]. split; [exact Gw|].
  split; [rewrite Es, E1; reflexivity|]. split; [rewrite Rr, Es; reflexivity|]. split; [rewrite Es, E1; reflexivity|].
  split; [rewrite Es, E1; reflexivity|]. split; [rewrite Es, E1; reflexivity|].
  split; [rewrite Gc'; apply (cd_codes _ _ _ CD)|]. split; [rewrite Gc'; apply (cd_codes _ _ _ CD)|].
  split; [rewrite Eresp; reflexivity|]. split.
  { exists gr, eb, ew. split; [exact Er|]. split; [exact Ec|]. cbv zeta. rewrite Rr, Egr. unfold soft_update_cpu_times, resource_time.
    rewrite Gc' in Gb, Gw. rewrite Gb, Gw. destruct (gr_cpu_b gr), (gr_cpu_w gr), eb, ew; reflexivity. }
  split; [rewrite Rr, Egr; cbn [soft_update_cpu_times gr_id]; rewrite Eid; apply SU|].
  split; [rewrite Rr, Egr; cbn [soft_update_cpu_times gr_player_b]; congruence|].
  split; [rewrite Rr, Egr; cbn [soft_update_cpu_times gr_player_w]; congruence|].
  split.
  { unfold warnings_of. rewrite Rr, Base'. assert (rp_warnings r = if r_forfeit (gr_base gr) then match r_detail (gr_base gr) with Some d => [d] | None => [str "None"] end else []) as ->
      by (rewrite Eresp; reflexivity).
    destruct (r_forfeit (gr_base gr)) eqn:Fo; [right|left; auto]. rewrite Base in Fo. destruct (forfeit_detail _ _ _ Fo) as (d & Ed). rewrite <- Base in Ed.
    split; [reflexivity|]. exists d. rewrite Ed. auto. }
  split; [rewrite Gc'; exact (cd_late _ _ _ CD eq_refl)|].
  split.
  { assert (rp_log r = match describe_late_errors (rn_gc s1) with Some (c :: r) => [c :: r] | _ => [] end) as -> by (rewrite Eresp; reflexivity).
    rewrite Gc'. unfold describe_late_errors. rewrite (cd_late _ _ _ CD eq_refl). destruct (late_errors (rn_gc s1)) as [|a l] eqn:El; [reflexivity|].
    rewrite <- lines_join. destruct (late_nonempty _ _ _ _ _ CD El) as (c & rr & ->). reflexivity. }
  split; [exact Ib|]. split; [exact Iw|]. split; [rewrite Es, E1; exact Eb|]. split; [rewrite Es, E1; exact Ew|].
  split; [rewrite Eresp; cbn [rp_engines]; rewrite Eb, Ew; reflexivity|]. exact Rec.
Qed.
End End.
