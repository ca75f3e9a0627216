(** C29: the ringmaster. *)
From Coq Require Import Permutation.
From Verif Require Import Base Bytes PyStr Dict CommonModel SchedModel GameplayModel JobModel JobSpec JobProofs
  RingModel RingSpec RingProofs RingHistoryProofs RingTourn RingTournProofs TournModel TournSpec TournProofs.

(** C29.  In every history of runs, crashes and restarts (RingSpec.v), the games in progress
    are those given to the job manager and not answered. *)
Theorem C29_games_in_progress {CF C ST J R} (comp : competition CF C ST J R) job_id response_id ok_cf answers inv saved records u d :
  sound comp job_id ok_cf answers inv saved records ->
  reach comp job_id response_id ok_cf answers (Some u) d ->
  Permutation (map snd (r_prog (ru_ring u))) (ru_flight u) /\ NoDup (map fst (r_prog (ru_ring u))) /\
  forall k j, In (k, j) (r_prog (ru_ring u)) -> k = job_id j.
Proof. exact (fun S => C29_in_progress_proof comp job_id response_id ok_cf answers inv saved records S u d). Qed.
Print Assumptions C29_games_in_progress.

(** A run doesn't start more games than it is allowed to. *)
Theorem C29_game_limit {CF C ST J R} (comp : competition CF C ST J R) job_id response_id ok_cf answers inv saved records u d m :
  sound comp job_id ok_cf answers inv saved records ->
  reach comp job_id response_id ok_cf answers (Some u) d -> ru_max u = Some m -> 0 <= m ->
  Z.of_nat (List.length (given (ru_calls u))) <= m.
Proof. exact (fun S => C29_limit_proof comp job_id response_id ok_cf answers inv saved records S u d m). Qed.
Print Assumptions C29_game_limit.

(** The status file is never partly written; between calls it is up to date. *)
Theorem C29_status_file {CF C ST J R} (comp : competition CF C ST J R) job_id response_id ok_cf answers inv saved records x d :
  sound comp job_id ok_cf answers inv saved records ->
  reach comp job_id response_id ok_cf answers x d ->
  match d_status d with Some FPartial => False | Some (FComplete _ st) => saved st | None => True end /\
  forall u, x = Some u -> match d_status d with
    | None => r_void (ru_ring u) = 0 /\ records None (r_comp (ru_ring u))
    | Some (FComplete v st) => v = r_void (ru_ring u) /\ records (Some st) (r_comp (ru_ring u))
    | Some FPartial => False
    end.
Proof. exact (fun S => C29_status_proof comp job_id response_id ok_cf answers inv saved records S x d). Qed.
Print Assumptions C29_status_file.

(** Processing a response succeeds unless writing the status file fails; at every moment the
    status file is the old one or contains the new status, and afterwards it's the new one. *)
Theorem C29_processing_a_response {CF C ST J R} (comp : competition CF C ST J R) job_id response_id ok_cf answers inv saved records u d j r f :
  sound comp job_id ok_cf answers inv saved records ->
  reach comp job_id response_id ok_cf answers (Some u) d -> In j (ru_flight u) -> runs job_id response_id answers j (RanOk r) ->
  exists g' ds x, process_response comp response_id f r (ru_ring u) d = (g', ds, x) /\
    (x = Ok tt \/ x = Err RingmasterError /\ f <> None) /\
    (forall d', In d' ds -> d_status d' = d_status d \/ d_status d' = Some (FComplete (r_void g') (c_status comp (r_comp g')))) /\
    (x = Ok tt -> d_status (last ds d) = Some (FComplete (r_void g') (c_status comp (r_comp g')))).
Proof. exact (fun S => C29_response_proof comp job_id response_id ok_cf answers inv saved records S u d j r f). Qed.
Print Assumptions C29_processing_a_response.

Theorem C29_processing_an_error {CF C ST J R} (comp : competition CF C ST J R) job_id response_id ok_cf answers inv saved records u d j f :
  sound comp job_id ok_cf answers inv saved records ->
  reach comp job_id response_id ok_cf answers (Some u) d -> In j (ru_flight u) ->
  exists g' ds x, process_error_response comp job_id f j (ru_ring u) d = (g', ds, x) /\
    (x = Ok tt \/ x = Err RingmasterError /\ f <> None) /\
    (forall d', In d' ds -> d_status d' = d_status d \/ d_status d' = Some (FComplete (r_void g') (c_status comp (r_comp g')))) /\
    (x = Ok tt -> d_status (last ds d) = Some (FComplete (r_void g') (c_status comp (r_comp g')))).
Proof. exact (fun S => C29_error_proof comp job_id response_id ok_cf answers inv saved records S u d j f). Qed.
Print Assumptions C29_processing_an_error.

Theorem C29_get_job_never_fails {CF C ST J R} (comp : competition CF C ST J R) job_id response_id ok_cf answers inv saved records u d i :
  sound comp job_id ok_cf answers inv saved records ->
  reach comp job_id response_id ok_cf answers (Some u) d -> exists a, snd (get_job comp job_id i (ru_ring u)) = Ok a.
Proof. exact (fun S => C29_get_proof comp job_id response_id ok_cf answers inv saved records S u d i). Qed.
Print Assumptions C29_get_job_never_fails.

(** The number of void games is that in the status file at the start plus the errors since. *)
Theorem C29_void_games {CF C ST J R} (comp : competition CF C ST J R) job_id response_id ok_cf answers inv saved records x d cf max disp g n cs g' d' l :
  sound comp job_id ok_cf answers inv saved records ->
  reach comp job_id response_id ok_cf answers x d -> ok_cf cf -> start comp cf max disp d = Ok g ->
  history (ring_source comp job_id response_id) (runs job_id response_id answers) n (g, d) [] cs (g', d') l ->
  r_void g' = (match d_status d with Some (FComplete v _) => v | _ => 0 end) + errors cs.
Proof. exact (fun S => C29_void_proof comp job_id response_id ok_cf answers inv saved records S x d cf max disp g n cs g' d' l). Qed.
Print Assumptions C29_void_games.

(** After a stop no more games are started in the run. *)
Theorem C29_stop_is_final {CF C ST J R} (comp : competition CF C ST J R) job_id response_id answers n s l cs s' l' :
  history (ring_source comp job_id response_id) (runs job_id response_id answers) n s l cs s' l' ->
  r_stopping (fst s) = true -> given cs = [] /\ r_stopping (fst s') = true.
Proof. exact (stop_final comp job_id response_id answers n s l cs s' l'). Qed.
Print Assumptions C29_stop_is_final.

(** A game that is to be retried is kept, and such games are given out first. *)
Theorem C29_retried_games_are_kept {CF C ST J R} (comp : competition CF C ST J R) job_id response_id ok_cf answers inv saved records u d j c' f :
  sound comp job_id ok_cf answers inv saved records ->
  reach comp job_id response_id ok_cf answers (Some u) d -> In j (ru_flight u) ->
  (forall n, c_error comp j n (r_comp (ru_ring u)) = (c', Ok (false, true))) ->
  exists g' ds x, process_error_response comp job_id f j (ru_ring u) d = (g', ds, x) /\ In j (map snd (r_replay g')).
Proof. exact (fun S => C29_retry_proof comp job_id response_id ok_cf answers inv saved records S u d j c' f). Qed.
Print Assumptions C29_retried_games_are_kept.

Theorem C29_retried_games_come_first {CF C ST J R} (comp : competition CF C ST J R) job_id i (g : ring C J) m :
  r_stopping g = false -> gi_terminal i = false -> gi_file i = false -> r_max g = m -> m <> Some 0 -> r_replay g <> [] ->
  exists j, snd (get_job comp job_id i g) = Ok (Some j) /\ In j (map snd (r_replay g)).
Proof. exact (C29_replayed_proof comp job_id i g m). Qed.
Print Assumptions C29_retried_games_come_first.

(** Whatever ids a competition gives to its games, two games with the same id are never in
    progress at once. *)
Theorem C29_no_game_twice {CF C ST J R} (comp : competition CF C ST J R) job_id response_id answers cf max disp d g n cs s' l :
  start comp cf max disp d = Ok g ->
  history (ring_source comp job_id response_id) (runs job_id response_id answers) n (g, d) [] cs s' l ->
  NoDup (map job_id l).
Proof. exact (no_game_twice_proof comp job_id response_id answers cf max disp d g n cs s' l). Qed.
Print Assumptions C29_no_game_twice.

(** Whatever a competition decides, the error count it is given with a failed game is the number
    of times that this game has been retried in this run (since the last time that it wasn't). *)
Theorem C29_error_counts {CF C ST J R} (comp : competition CF C ST J R) job_id response_id answers cf max disp d g n cs s' l :
  start (errors_noted job_id comp) cf max disp d = Ok g ->
  history (ring_source (errors_noted job_id comp) job_id response_id) (runs job_id response_id answers) n (g, d) [] cs s' l ->
  forall before x rest, snd (r_comp (fst s')) = before ++ x :: rest -> no_count x = retries (no_id x) before.
Proof. exact (error_counts_proof comp job_id response_id answers cf max disp d g n cs s' l). Qed.
Print Assumptions C29_error_counts.

(** A competition with one game that is retried twice at most: it fails three times. *)
Definition one_game : competition unit unit unit bytes unit :=
  mkComp unit unit unit bytes unit (fun _ => Ok tt) (fun _ _ => Ok tt) (fun _ => tt) (fun _ => (tt, Ok (Some (str "7"))))
    (fun _ _ => (tt, Ok tt)) (fun _ n _ => (tt, Ok (false, n <? 2))) (fun _ => tt).
Definition one_fails (s : ring (unit * list noted) bytes * disk unit) : ring (unit * list noted) bytes * disk unit :=
  let g1 := fst (get_job (errors_noted (fun j => j) one_game) (fun j => j) (mkGI false false 0 false) (fst s)) in
  match process_error_response (errors_noted (fun j => j) one_game) (fun j => j) None (str "7") g1 (snd s) with
  | (g2, ds, _) => (g2, last ds (snd s))
  end.
Definition one_start : ring (unit * list noted) bytes * disk unit :=
  (mkRing (tt, []) 0 [] [] [] false None, mkDisk None None).
Example C29_error_counts_example :
  start (errors_noted (fun j => j) one_game) tt None false (snd one_start) = Ok (fst one_start) /\
  exists cs, history (ring_source (errors_noted (fun j => j) one_game) (fun j => j) (fun _ => str "7")) (runs (fun j => j) (fun _ => str "7") (fun _ _ => True)) 1
    one_start [] cs (one_fails (one_fails (one_fails one_start))) [] /\
  snd (r_comp (fst (one_fails (one_fails (one_fails one_start))))) =
    [mkNoted (str "7") 0 true; mkNoted (str "7") 1 true; mkNoted (str "7") 2 false].
Proof.
  split; [reflexivity|].
  assert (forall s cs, history (ring_source (errors_noted (fun j => j) one_game) (fun j => j) (fun _ => str "7")) (runs (fun j => j) (fun _ => str "7") (fun _ _ => True)) 1 one_start [] cs s [] ->
     snd (get_job (errors_noted (fun j => j) one_game) (fun j => j) (mkGI false false 0 false) (fst s)) = Ok (Some (str "7")) ->
     snd (process_error_response (errors_noted (fun j => j) one_game) (fun j => j) None (str "7") (fst (get_job (errors_noted (fun j => j) one_game) (fun j => j) (mkGI false false 0 false) (fst s))) (snd s)) = Ok tt ->
     exists cs', history (ring_source (errors_noted (fun j => j) one_game) (fun j => j) (fun _ => str "7")) (runs (fun j => j) (fun _ => str "7") (fun _ _ => True)) 1 one_start [] cs' (one_fails s) []) as St.
  { intros s cs H G P. unfold one_fails. destruct (get_job _ _ _ (fst s)) as [g1 x] eqn:E1. cbn [fst snd] in *. subst x.
    destruct (process_error_response _ _ _ _ g1 (snd s)) as [[g2 ds] y] eqn:E2. cbn [snd] in P. subst y. eexists.
    eapply (h_error _ _ 1 _ _ _ (g1, snd s) [] (str "7") [] []).
    - eapply h_job; [exact H|cbn; lia|]. exists (mkGI false false 0 false). split; [exact E1|reflexivity].
    - exact I.
    - exists None, ds. split; [exact E2|reflexivity]. }
  destruct (St one_start [] (h_nil _ _ _ _ _) eq_refl eq_refl) as (c1 & H1).
  destruct (St _ c1 H1 eq_refl eq_refl) as (c2 & H2). destruct (St _ c2 H2 eq_refl eq_refl) as (c3 & H3).
  exists c3. split; [exact H3|reflexivity].
Qed.

(** A run of the job manager over the ringmaster fails only if the status file can't be
    written: never by an internal error. *)
Theorem C29_run_fails_only_by_the_disk {CF C ST J R} (comp : competition CF C ST J R) job_id response_id ok_cf answers inv saved records x d cf max disp g n ls st ce e :
  sound comp job_id ok_cf answers inv saved records -> (1 <= n)%nat ->
  reach comp job_id response_id ok_cf answers x d -> ok_cf cf -> start comp cf max disp d = Ok g ->
  mrun (ring_source comp job_id response_id) (runs job_id response_id answers) (ring_passed ce) n (minit n (g, d)) ls st ->
  ms_pc st = MRaised e -> e = RingmasterError.
Proof. exact (fun S => C29_raised_proof comp job_id response_id ok_cf answers inv saved records S x d cf max disp g n ls st ce e). Qed.
Print Assumptions C29_run_fails_only_by_the_disk.

(** All this holds for tournaments. *)
Theorem C29_tournaments_are_sound :
  exists inv saved records, sound tourn_comp j_id config_ok game_answer inv saved records /\
    forall t, (records None t <-> forall id, get_matchup_results t id = []) /\
      forall st, records (Some st) t <-> forall void id, get_matchup_results t id = saved_results (Some (FComplete void st)) id.
Proof. exact C29_tournaments_are_sound_proof. Qed.
Print Assumptions C29_tournaments_are_sound.

(** Playing a tournament to the end: after any runs, crashes and restarts, when a run returns
    without having been stopped, then the status file contains (at least) the number of
    results wanted for every matchup in the control file. *)
Theorem C29_run_completes_the_tournament x d cf max disp g n ls st ce : (1 <= n)%nat ->
  reach tourn_comp j_id rs_id config_ok game_answer x d -> config_ok cf -> start tourn_comp cf max disp d = Ok g ->
  mrun (ring_source tourn_comp j_id rs_id) (runs j_id rs_id game_answer) (ring_passed ce) n (minit n (g, d)) ls st ->
  ms_pc st = MReturned -> r_stopping (fst (ms_src st)) = false ->
  forall m, In m (cf_matchups cf) ->
    exists l, m_games m = Some l /\ l <= Z.of_nat (List.length (saved_results (d_status (snd (ms_src st))) (m_id m))) /\
      get_matchup_results (r_comp (fst (ms_src st))) (m_id m) = saved_results (d_status (snd (ms_src st))) (m_id m).
Proof. exact (C29_run_completes_proof x d cf max disp g n ls st ce). Qed.
Print Assumptions C29_run_completes_the_tournament.

(** ** Examples: a tournament of one matchup of two games; the first run is killed while the
    status file is being written, and a second one plays the remaining game. *)
Definition ex_set : settings := mkSet 9 (75, 1%nat) None false 1000 true CompNo.
Definition ex_cf : tconfig :=
  mkCf [str "a"; str "b"] [mkM (str "0") (str "a") (str "b") true (Some 2) ex_set] None.
Definition ex_gr (b w : bytes) (c : colour) : game_result :=
  mkGR b w (Some c) (winner_text (Some c) ++ str "3") None false None (dset w None (dset b None []))
       false (player_of b w (Some c)).
Definition ex_r0 : response := mkResp (str "0_0") (str "0", 0%nat) (ex_gr (str "a") (str "b") Black) [].
Definition ex_r1 : response := mkResp (str "0_1") (str "0", 1%nat) (ex_gr (str "b") (str "a") White) [].
Definition ex_d0 : disk tstatus := mkDisk None None.
Definition quiet : ginput := mkGI false false 0 false.
Definition ok_or {A} (d : A) (x : res A) : A := match x with Ok a => a | Err _ => d end.
Definition ex_no : ring tourn job := mkRing (set_clean_status ex_cf) 0 [] [] [] true None.
(** First run: two games are given out, the second finishes, then the first: the process is
    killed before the file is renamed. *)
Definition ex_g0 := ok_or ex_no (start tourn_comp ex_cf None false ex_d0).
Definition ex_g1 := fst (get_job tourn_comp j_id quiet ex_g0).
Definition ex_g2 := fst (get_job tourn_comp j_id quiet ex_g1).
Definition ex_p1 := process_response tourn_comp rs_id None ex_r1 ex_g2 ex_d0.
Definition ex_g3 := fst (fst ex_p1).
Definition ex_d1 := last (snd (fst ex_p1)) ex_d0.
Definition ex_p2 := process_response tourn_comp rs_id None ex_r0 ex_g3 ex_d1.
Definition ex_d2 := nth 1 (snd (fst ex_p2)) ex_d0.
(** Second run. *)
Definition ex_g4 := ok_or ex_no (start tourn_comp ex_cf (Some 1) false ex_d2).
Definition ex_g5 := fst (get_job tourn_comp j_id quiet ex_g4).
Definition ex_j0 : job := make_job (mkM (str "0") (str "a") (str "b") true (Some 2) ex_set) 0.
Definition ex_j1 : job := make_job (mkM (str "0") (str "a") (str "b") true (Some 2) ex_set) 1.

Lemma ex_s0 : start tourn_comp ex_cf None false ex_d0 = Ok ex_g0. Proof. vm_compute. reflexivity. Qed.
Lemma ex_s1 : get_job tourn_comp j_id quiet ex_g0 = (ex_g1, Ok (Some ex_j0)). Proof. vm_compute. reflexivity. Qed.
Lemma ex_s2 : get_job tourn_comp j_id quiet ex_g1 = (ex_g2, Ok (Some ex_j1)). Proof. vm_compute. reflexivity. Qed.
Lemma ex_s3 : process_response tourn_comp rs_id None ex_r1 ex_g2 ex_d0 = (ex_g3, snd (fst ex_p1), Ok tt). Proof. vm_compute. reflexivity. Qed.
Lemma ex_s4 : process_response tourn_comp rs_id None ex_r0 ex_g3 ex_d1 = (fst (fst ex_p2), snd (fst ex_p2), Ok tt). Proof. vm_compute. reflexivity. Qed.
Lemma ex_s5 : start tourn_comp ex_cf (Some 1) false ex_d2 = Ok ex_g4. Proof. vm_compute. reflexivity. Qed.
Lemma ex_s6 : get_job tourn_comp j_id quiet ex_g4 = (ex_g5, Ok (Some ex_j0)). Proof. vm_compute. reflexivity. Qed.
Lemma ex_s7 : In ex_d2 (snd (fst ex_p2)). Proof. vm_compute. right. left. reflexivity. Qed.
Lemma ex_a0 : runs j_id rs_id game_answer ex_j0 (RanOk ex_r0). Proof. split; [split|]; vm_compute; reflexivity. Qed.
Lemma ex_a1 : runs j_id rs_id game_answer ex_j1 (RanOk ex_r1). Proof. split; [split|]; vm_compute; reflexivity. Qed.
Lemma ex_config_ok : config_ok ex_cf.
Proof. split; [repeat constructor; cbn; tauto|]. intros m [<-|[]]. cbn. auto. Qed.

Definition ex_run2 := mkRun ex_cf (Some 1) ex_g5 ([] ++ [@CallGet job response (Ok (Some ex_j0))]) [ex_j0].
Lemma ex_reach (g0 g1 g2 g3 g3' g4 g5 : ring tourn job) (d0 d1 d2 : disk tstatus) ds1 ds2 :
  d0 = mkDisk None None ->
  start tourn_comp ex_cf None false d0 = Ok g0 -> get_job tourn_comp j_id quiet g0 = (g1, Ok (Some ex_j0)) ->
  get_job tourn_comp j_id quiet g1 = (g2, Ok (Some ex_j1)) ->
  process_response tourn_comp rs_id None ex_r1 g2 d0 = (g3, ds1, Ok tt) -> d1 = last ds1 d0 ->
  process_response tourn_comp rs_id None ex_r0 g3 d1 = (g3', ds2, Ok tt) -> In d2 ds2 ->
  start tourn_comp ex_cf (Some 1) false d2 = Ok g4 -> get_job tourn_comp j_id quiet g4 = (g5, Ok (Some ex_j0)) ->
  reach tourn_comp j_id rs_id config_ok game_answer
    (Some (mkRun ex_cf (Some 1) g5 ([] ++ [@CallGet job response (Ok (Some ex_j0))]) [ex_j0])) d2.
Proof.
  intros E0 S0 S1 S2 S3 E1 S4 I2 S5 S6.
  pose proof (h_nil (ring_source tourn_comp j_id rs_id) (runs j_id rs_id game_answer) 2 (g0, d0) []) as H0.
  pose proof (h_job _ _ _ _ _ _ (g0, d0) _ ex_j0 (g1, d0) H0 ltac:(cbn; lia) (ex_intro _ quiet (conj S1 eq_refl))) as H1.
  pose proof (h_job _ _ _ _ _ _ (g1, d0) _ ex_j1 (g2, d0) H1 ltac:(cbn; lia) (ex_intro _ quiet (conj S2 eq_refl))) as H2.
  pose proof (h_response _ _ _ _ _ _ (g2, d0) [] ex_j1 [ex_j0] ex_r1 (g3, d1) H2 ex_a1
                (ex_intro _ None (ex_intro _ ds1 (conj S3 E1)))) as H3.
  assert (reach tourn_comp j_id rs_id config_ok game_answer None d0) as R0 by (rewrite E0; apply re_new).
  pose proof (re_run tourn_comp j_id rs_id config_ok game_answer None d0 ex_cf None false g0 2 _ g3 d1 [ex_j0] R0 ex_config_ok S0 H3) as R1.
  pose proof (re_kill_response tourn_comp j_id rs_id config_ok game_answer _ _ ex_j0 ex_r0 None _ _ _ d2 R1 (or_introl eq_refl) ex_a0 S4 I2) as R2.
  pose proof (h_nil (ring_source tourn_comp j_id rs_id) (runs j_id rs_id game_answer) 1 (g4, d2) []) as K0.
  pose proof (h_job _ _ _ _ _ _ (g4, d2) _ ex_j0 (g5, d2) K0 ltac:(cbn; lia) (ex_intro _ quiet (conj S6 eq_refl))) as K1.
  exact (re_run tourn_comp j_id rs_id config_ok game_answer None d2 ex_cf (Some 1) false g4 1 _ g5 d2 [ex_j0] R2 ex_config_ok S5 K1).
Qed.
Example C29_example : reach tourn_comp j_id rs_id config_ok game_answer (Some ex_run2) ex_d2.
Proof. exact (ex_reach ex_g0 ex_g1 ex_g2 ex_g3 (fst (fst ex_p2)) ex_g4 ex_g5 ex_d0 ex_d1 ex_d2 _ _ eq_refl ex_s0 ex_s1 ex_s2 ex_s3 eq_refl ex_s4 ex_s7 ex_s5 ex_s6). Qed.
Example C29_example_facts : map fst (r_prog (ru_ring ex_run2)) = [str "0_0"] /\
  List.length (saved_results (d_status ex_d2) (str "0")) = 1%nat /\
  d_new ex_d2 <> None /\ snd (get_job tourn_comp j_id quiet (ru_ring ex_run2)) = Ok None.
Proof. split; [vm_compute; reflexivity|]. split; [vm_compute; reflexivity|]. split; [vm_compute; discriminate|vm_compute; reflexivity]. Qed.

(** The second run to its end, without a limit: it returns and all is played. *)
Definition ex_g6 := ok_or ex_no (start tourn_comp ex_cf None true ex_d2).
Definition ex_g7 := fst (get_job tourn_comp j_id quiet ex_g6).
Definition ex_p3 := process_response tourn_comp rs_id None ex_r0 ex_g7 ex_d2.
Definition ex_g8 := fst (get_job tourn_comp j_id quiet (fst (fst ex_p3))).
Definition ex_d3 := last (snd (fst ex_p3)) ex_d2.
Definition ex_labels : list (label job response) :=
  ((((([] ++ [LGet (Some ex_j0)]) ++ [LTake 0 ex_j0]) ++ [LFull]) ++ [LFinish 0 ex_j0 (RanOk ex_r0)]) ++ [LDeliver (Response ex_r0)]) ++ [LGet None].
Lemma ex_t0 : start tourn_comp ex_cf None true ex_d2 = Ok ex_g6. Proof. vm_compute. reflexivity. Qed.
Lemma ex_t1 : get_job tourn_comp j_id quiet ex_g6 = (ex_g7, Ok (Some ex_j0)). Proof. vm_compute. reflexivity. Qed.
Lemma ex_t2 : process_response tourn_comp rs_id None ex_r0 ex_g7 ex_d2 = (fst (fst ex_p3), snd (fst ex_p3), Ok tt). Proof. vm_compute. reflexivity. Qed.
Lemma ex_t3 : get_job tourn_comp j_id quiet (fst (fst ex_p3)) = (ex_g8, Ok None). Proof. vm_compute. reflexivity. Qed.
Lemma ex_t4 : ex_d3 = last (snd (fst ex_p3)) ex_d2. Proof. unfold ex_d3. reflexivity. Qed.
Definition ex_end : msys job response (ring tourn job * disk tstatus) := mkMS (ex_g8, ex_d3) [] [None] [] 0 MReturned.
Lemma ex_mrun (g6 g7 g8' g8 : ring tourn job) (d2 d3 : disk tstatus) ds :
  get_job tourn_comp j_id quiet g6 = (g7, Ok (Some ex_j0)) ->
  process_response tourn_comp rs_id None ex_r0 g7 d2 = (g8', ds, Ok tt) -> d3 = last ds d2 ->
  get_job tourn_comp j_id quiet g8' = (g8, Ok None) ->
  mrun (ring_source tourn_comp j_id rs_id) (runs j_id rs_id game_answer) (ring_passed (fun _ => false)) 1 (minit 1 (g6, d2)) ex_labels
    (mkMS (g8, d3) [] [None] [] 0 MReturned).
Proof.
  intros T1 T2 ED T3. unfold ex_labels.
  eapply (mr_snoc _ _ _ _ _ _ (mkMS (g8', d3) [] [None] [] 0 MTop)).
  2:{ apply (m_nojob _ _ _ 1 _ [] [None] [] 0 (g8, d3)); [lia|]. exists quiet. split; [exact T3|reflexivity]. }
  eapply (mr_snoc _ _ _ _ _ _ (mkMS (g7, d2) [] [None] [Response ex_r0] 1 MWait)).
  2:{ apply (m_deliver _ _ _ 1 _ [] [None] (Response ex_r0) [] 1 (g8', d3)). exists None, (ds). split; [exact T2|exact ED]. }
  eapply (mr_snoc _ _ _ _ _ _ (mkMS (g7, d2) [] [Some ex_j0] [] 1 MWait)).
  2:{ apply (m_finish _ _ _ 1 _ [] [Some ex_j0] [] 1 MWait 0 ex_j0 (RanOk ex_r0)); [reflexivity|exact ex_a0]. }
  eapply (mr_snoc _ _ _ _ _ _ (mkMS (g7, d2) [] [Some ex_j0] [] 1 MTop)).
  2:{ apply (m_full _ _ _ 1 _ [] [Some ex_j0] [] 1). lia. }
  eapply (mr_snoc _ _ _ _ _ _ (mkMS (g7, d2) [ex_j0] [None] [] 1 MTop)).
  2:{ apply (m_take _ _ _ 1 _ ex_j0 [] [None] [] 1 MTop 0). reflexivity. }
  eapply (mr_snoc _ _ _ _ _ _ (mkMS (g6, d2) [] [None] [] 0 MTop)).
  2:{ apply (m_job _ _ _ 1 _ [] [None] [] 0 ex_j0 (g7, d2)); [lia|]. exists quiet. split; [exact T1|reflexivity]. }
  apply mr_nil.
Qed.
Example C29_example_end :
  mrun (ring_source tourn_comp j_id rs_id) (runs j_id rs_id game_answer) (ring_passed (fun _ => false)) 1 (minit 1 (ex_g6, ex_d2)) ex_labels ex_end.
Proof. unfold ex_end. apply (ex_mrun ex_g6 ex_g7 (fst (fst ex_p3)) ex_g8 ex_d2 ex_d3 (snd (fst ex_p3)) ex_t1 ex_t2 ex_t4 ex_t3). Qed.
Example C29_example_end_facts : r_stopping (fst (ms_src ex_end)) = false /\ saved_results (d_status (snd (ms_src ex_end))) (str "0") = [rs_result ex_r1; rs_result ex_r0].
Proof. split; vm_compute; reflexivity. Qed.
