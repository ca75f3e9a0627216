(** Proofs for C73: the reports of the tuner, after any history. *)
From Coq Require Import QArith Permutation Sorted.
From Verif Require Import Base Bytes PyStr Dict CommonModel SgfPropsModel SchedModel SchedSpec SchedProofs GameplayModel TableModel ReportModel SgfValueProofs ReportTextProofs MctsModel MctsSpec MctsCellProofs MctsTreeProofs MctsProofs MctsLedgerProofs MctsReportModel MctsReportSpec MctsOrderProofs MctsReportProofs.
Open Scope Z_scope.

Lemma sort_numbers_proof {A} (l : list (nat * A)) : NoDup (map fst l) -> Permutation (sort_numbers l) l /\ StronglySorted lt (map fst (sort_numbers l)).
Proof.
  intros N. assert (Q : forall m : list (nat * A), Permutation m (sort_numbers m)).
  { intros m. apply (sort_perm insert_number (fun x y => Nat.ltb (fst y) (fst x))); reflexivity. }
  split; [apply Permutation_sym, Q|]. apply sorted_map. induction l as [|x l IH]; [constructor|]. cbn [map] in N. inversion N as [|? ? NI N']; subst.
  apply (ins_sorted (fun a b => (fst a < fst b)%nat) insert_number (fun x y => Nat.ltb (fst y) (fst x))); try reflexivity; [intros a b c; lia| |apply IH; exact N'].
  intros y I. destruct (Nat.ltb_spec (fst y) (fst x)) as [E|E]; [exact E|].
  assert (fst y <> fst x); [|lia]. intros EQ. apply NI. rewrite <- EQ. apply in_map. eapply Permutation_in; [apply Permutation_sym, Q|exact I].
Qed.

Lemma slice_to_spec {A} n (l : list A) : slice_to n l = up_to n l.
Proof. unfold slice_to, up_to. destruct (n <? 0); reflexivity. Qed.

Lemma firstn_in {A} n (l : list A) x : In x (firstn n l) -> In x l.
Proof. intros I. rewrite <- (firstn_skipn n l). apply in_or_app. left. exact I. Qed.

Section Reports.
Context {V P : Type}.
Variable tie : Z -> Z -> bool.
Variable formats : list (bytes * (V -> option bytes)).
Variable show_value : V -> bytes.
Variable rc : rconfig.
Variable cf : mconfig V P.
Hypothesis cf_ok : usable cf.
Hypothesis visits_pos : 0 < tp_initial_visits (mc_tree cf).
Hypothesis wins_nonneg : 0 <= tp_initial_wins (mc_tree cf).
Notation b := (branching (tp_splits (mc_tree cf))).

Lemma inv_done t now : MInv cf t now -> fixed (mt_sched t) = Z.of_nat (List.length (l_done now)).
Proof. intros I. destruct (mi_sched _ _ _ I) as (_ & _ & _ & E). rewrite E. unfold fixed_count, bag_of. cbn [b_fixed]. rewrite map_length. reflexivity. Qed.
Lemma inv_path t now n q : MInv cf t now -> In (n, q) (l_out now) -> Forall (fun i => (i < b)%nat) q.
Proof.
  intros I H. pose proof (mi_shows _ _ _ I) as (_ & _ & H3). specialize (H3 _ _ H). destruct (node_at q (mt_root t)) as [x|] eqn:E; [|congruence].
  exact (proj2 (wf_at _ _ _ _ (mi_wf _ _ _ I) E)).
Qed.

Lemma summary_random r spec : forall i g, summary_from tie formats show_value (with_random r cf) i g spec = summary_from tie formats show_value cf i g spec.
Proof.
  induction spec as [|n spec IH]; intros i g; [reflexivity|]. cbn [summary_from]. cbv zeta. rewrite IH.
  change (summary_line tie formats show_value (with_random r cf)) with (summary_line tie formats show_value cf). reflexivity.
Qed.

Lemma main_proof t now : MInv cf t now -> exists s, main_report tie formats show_value rc t = Ok s /\ main_says formats show_value cf (mt_root t) now rc s.
Proof.
  intros I. destruct (mi_conf _ _ _ I) as (r & EC). unfold main_report. rewrite EC. cbv zeta.
  destruct (walk_ok _ (b_positive cf cf_ok) (fun _ => choose_greedy) most_wins) with (x := mt_root t) (k := 0%nat) as (path & leaf & E & D & A & N).
  - intros k x i c. apply choose_greedy_best.
  - intros k x cs. apply choose_greedy_some.
  - exact (mi_wf _ _ _ I).
  - unfold retrieve_best_path. rewrite E. pose proof (proj2 (wf_at _ _ _ _ (mi_wf _ _ _ I) A)) as FP.
    destruct (sim_proof formats show_value cf cf_ok path None FP) as (a & EA & TA).
    destruct (summary_proof tie formats show_value cf cf_ok (mt_root t) now (mi_shows _ _ _ I) (mi_wf _ _ _ I) visits_pos wins_nonneg (rc_summary rc) 0 _ (gen_start (mt_root t))) as (bb & EB & TB).
    change (describe_simulation formats show_value (with_random r cf) path None) with (describe_simulation formats show_value cf path None). rewrite EA. cbn [bind].
    unfold summarise. rewrite (summary_random r). rewrite EB. cbn [bind].
    eexists. split; [reflexivity|]. exists path, a, bb. split; [exact D|]. split; [exact TA|]. split; [exact TB|].
    rewrite (inv_done t now I). cbn [with_random mc_number_of_games]. unfold written. cbn [map List.concat]. unfold say. rewrite app_nil_r, <- !app_assoc. reflexivity.
Qed.

Lemma screen_proof t now : MInv cf t now -> exists s, screen_report tie formats show_value rc t = Ok s /\ screen_says formats show_value cf (mt_root t) now rc s.
Proof.
  intros I. destruct (main_proof t now I) as (a & EA & TA). unfold screen_report. rewrite EA. cbn [bind]. destruct (mi_conf _ _ _ I) as (r & EC).
  pose proof (nodup_out _ _ _ I) as ND. pose proof (inv_path t now) as IP. rewrite (mi_sims _ _ _ I).
  destruct (l_out now) as [|o os] eqn:EO.
  - cbn [bind]. eexists. split; [reflexivity|]. exists a, []. split; [exact TA|]. split; [reflexivity|]. left. auto.
  - rewrite <- EO in *. destruct (sort_numbers_proof (l_out now) ND) as [PS SS]. rewrite slice_to_spec.
    destruct (all_lines_proof (fun kp : nat * list nat => do d <- describe_simulation formats show_value (mt_conf t) (snd kp) None; Ok (str "game " ++ str_int (Z.of_nat (fst kp)) ++ str ": " ++ d))
       (fun kp s => exists d, sim_text formats show_value cf (snd kp) [] d /\ s = str "game " ++ str_int (Z.of_nat (fst kp)) ++ str ": " ++ d)
       (up_to (rc_running rc) (sort_numbers (l_out now)))) as (ls & EL & FL).
    { intros [n q] IN. apply firstn_in in IN. apply (Permutation_in _ PS) in IN. cbn [fst snd]. rewrite EC.
      change (describe_simulation formats show_value (with_random r cf) q None) with (describe_simulation formats show_value cf q None).
      destruct (sim_proof formats show_value cf cf_ok q None (IP n q I IN)) as (d & ED & TD). rewrite ED. cbn [bind]. eexists. split; [reflexivity|]. exists d. auto. }
    rewrite EL. cbn [bind]. eexists. split; [reflexivity|]. exists a. eexists. split; [exact TA|]. split; [reflexivity|]. right. split; [rewrite EO; discriminate|].
    exists (sort_numbers (l_out now)), ls. split; [exact PS|]. split; [exact SS|]. split; [exact FL|reflexivity].
Qed.

Lemma short_proof t now : MInv cf t now -> exists s, short_report tie formats show_value rc t = Ok s /\ short_says formats show_value cf (mt_root t) now rc (mt_desc t) s.
Proof.
  intros I. destruct (main_proof t now I) as (a & EA & TA). unfold short_report. rewrite EA. cbn [bind]. destruct (mi_conf _ _ _ I) as (r & EC).
  eexists. split; [reflexivity|]. exists a. split; [exact TA|]. rewrite EC. cbn [with_random mc_opponent]. unfold static_description, written, say.
  destruct (rc_description rc) as [[|c d]|], (mt_desc t) as [[|c' d']|]; cbn [List.length Nat.eqb map List.concat app]; rewrite ?app_nil_r, <- ?app_assoc; reflexivity.
Qed.

Lemma result_proof t now r sgf : MInv cf t now -> (forall k, rc_period rc = Some k -> 0 < k) ->
  match process_game_result r t with
  | (t', Ok _) => exists o1 path o2 w logged returned,
      l_out now = o1 ++ (mr_data r, path) :: o2 /\ candidate_won (mc_opponent cf) r w /\
      result_text tie formats show_value rc r sgf t = Ok (logged, returned) /\
      result_says formats show_value cf (mt_root t') (mkL ((mr_data r, Some (path, w)) :: l_done now) (o1 ++ o2) false) rc path w sgf logged returned
  | (_, Err _) => exists e, result_text tie formats show_value rc r sgf t = Err e
  end.
Proof.
  intros I KP. pose proof (result_inv cf cf_ok t now r I) as RI. unfold result_text. destruct (process_game_result r t) as [t' [[]|e]] eqn:EP; [|exists e; reflexivity].
  destruct RI as (o1 & path & o2 & w & DN & EO & CW & I').
  assert (EG : iget (mr_data r) (mt_sims t) = Some path).
  { rewrite (mi_sims _ _ _ I), EO. pose proof (nodup_out _ _ _ I) as ND. rewrite EO in ND. apply iget_mid. exact ND. }
  rewrite EG. destruct (mi_conf _ _ _ I) as (rr & EC). destruct (mi_conf _ _ _ I') as (rr' & EC').
  assert (EW : match mr_loser r with Some c => bytes_eqb c (mc_opponent (mt_conf t)) | None => false end = w).
  { rewrite EC. cbn [with_random mc_opponent]. unfold candidate_won in CW. destruct (mr_loser r) as [c|].
    - destruct (bytes_eqb_spec c (mc_opponent cf)) as [D|D].
      + symmetry. apply CW. congruence.
      + destruct w; [|reflexivity]. destruct D. assert (Some c = Some (mc_opponent cf)) by (apply CW; reflexivity). congruence.
    - destruct w; [|reflexivity]. assert (None = Some (mc_opponent cf)) by (apply CW; reflexivity). discriminate. }
  rewrite EW.
  assert (FP : Forall (fun i => (i < b)%nat) path). { eapply inv_path; [exact I|]. rewrite EO. apply in_or_app. right. left. reflexivity. }
  destruct (sim_proof formats show_value cf cf_ok path (Some w) FP) as (d & ED & TD). rewrite EC'.
  change (describe_simulation formats show_value (with_random rr' cf) path (Some w)) with (describe_simulation formats show_value cf path (Some w)). rewrite ED. cbn [bind].
  pose proof (inv_done t' _ I') as EN. rewrite EN.
  assert (TD' : sim_text formats show_value cf path (if w then str " won" else str " lost") d) by (destruct w; exact TD).
  set (n := Z.of_nat (List.length (l_done (mkL ((mr_data r, Some (path, w)) :: l_done now) (o1 ++ o2) false)))) in *.
  destruct (rc_period rc) as [k|] eqn:EK.
  - specialize (KP k eq_refl). destruct (Z.eqb_spec (n mod k) 0) as [EM|EM].
    + destruct (tree_proof tie formats show_value cf cf_ok (mt_root t') _ (mi_shows _ _ _ I') (mi_wf _ _ _ I') visits_pos wins_nonneg) as (s & ES & TS).
      rewrite (mi_count _ _ _ I').
      change (describe_tree tie formats show_value (with_random rr' cf) (mt_root t') (count_tree_size (mt_root t'))) with (describe_tree tie formats show_value cf (mt_root t') (count_tree_size (mt_root t'))).
      rewrite ES. cbn [bind]. exists o1, path, o2, w. do 2 eexists. split; [exact EO|]. split; [exact CW|]. split; [reflexivity|].
      exists d, [s]. split; [exact TD'|]. split; [reflexivity|]. split; [reflexivity|]. left. exists k, (n / k). split; [exact EK|]. split; [|exists s; auto].
      change (n = k * (n / k)). pose proof (Z.div_mod n k). lia.
    + cbn [bind]. exists o1, path, o2, w. do 2 eexists. split; [exact EO|]. split; [exact CW|]. split; [reflexivity|].
      exists d, []. split; [exact TD'|]. split; [reflexivity|]. split; [reflexivity|]. right. split; [|reflexivity]. intros k' m EK'. rewrite EK in EK'. injection EK' as <-.
      change (n <> k * m). intros EQ. apply EM. rewrite EQ, Z.mul_comm. apply Z.mod_mul. lia.
  - cbn [bind]. exists o1, path, o2, w. do 2 eexists. split; [exact EO|]. split; [exact CW|]. split; [reflexivity|].
    exists d, []. split; [exact TD'|]. split; [reflexivity|]. split; [reflexivity|]. right. split; [|reflexivity]. intros k' m EK'. rewrite EK in EK'. discriminate.
Qed.
End Reports.

(** ** The opponent's description *)
Section Description.
Context {V P : Type}.
Variable veqb : V -> V -> bool.
Variable less : Z -> Z * Z -> Z * Z -> bool.
Variable cf : mconfig V P.
Definition saved_desc (st : option (mstatus V)) : option bytes := match st with Some s => mst_desc s | None => None end.

Lemma result_desc r (t : tuner V P) : mt_desc (fst (process_game_result r t)) = match dget (mc_opponent (mt_conf t)) (mr_descriptions r) with Some d => Some d | None => mt_desc t end
  /\ mt_conf (fst (process_game_result r t)) = mt_conf t.
Proof.
  unfold process_game_result. cbv zeta. destruct (dget (mc_opponent (mt_conf t)) (mr_descriptions r)) as [d|]; [|split; reflexivity].
  destruct (fix_token (mt_sched t) (mr_data r)) as [s [[]|e]]; [|split; reflexivity]. destruct (iget _ _) as [p|]; [|split; reflexivity].
  destruct (do l <- parameters_for_path (mc_tree (mt_conf t)) p; scale_parameters (mt_conf t) l); split; reflexivity.
Qed.
Lemma get_desc (t : tuner V P) : mt_desc (fst (get_game less t)) = mt_desc t /\ mt_conf (fst (get_game less t)) = mt_conf t.
Proof.
  unfold get_game. cbv zeta. destruct (match mc_number_of_games (mt_conf t) with Some n => issued (mt_sched t) >=? n | None => false end); [split; reflexivity|].
  destruct (issue (mt_sched t)) as [s n].
  repeat match goal with |- context [match ?x with _ => _ end] => destruct x end; split; reflexivity.
Qed.
Lemma error_desc n (t : tuner V P) : mt_desc (fst (process_game_error n t)) = mt_desc t /\ mt_conf (fst (process_game_error n t)) = mt_conf t.
Proof.
  unfold process_game_error. cbv zeta. destruct (iget n (mt_sims t)); [|split; reflexivity]. destruct (fix_token _ n) as [s [[]|e]]; split; reflexivity.
Qed.

Lemma description_proof cs : forall t st t' st' es, mc_opponent (mt_conf t) = mc_opponent cf ->
  mrun veqb less cf (t, st) cs = Some (t', st', es) -> mt_desc t' = description (mc_opponent cf) es (mt_desc t) (saved_desc st).
Proof.
  induction cs as [|c cs IH]; intros t st t' st' es O E; cbn [mrun] in E; [injection E as <- <- <-; reflexivity|].
  destruct (mdo veqb less cf (t, st) c) as [[[t1 st1] e]|] eqn:ED; [|discriminate].
  destruct (mrun veqb less cf (t1, st1) cs) as [[[t2 st2] es']|] eqn:ER; [|discriminate]. injection E as <- <- <-.
  destruct c as [|r|n| |rnd]; cbn [mdo] in ED.
  - pose proof (get_desc t) as [D C]. destruct (get_game less t) as [t0 a]. injection ED as <- <- <-. cbn [fst] in D, C. cbn [description].
    rewrite <- D. eapply IH; [rewrite C; exact O|exact ER].
  - pose proof (result_desc r t) as [D C]. destruct (process_game_result r t) as [t0 a]. injection ED as <- <- <-. cbn [fst] in D, C. cbn [description].
    rewrite <- O, <- D, O. eapply IH; [rewrite C; exact O|exact ER].
  - pose proof (error_desc n t) as [D C]. destruct (process_game_error n t) as [t0 a]. injection ED as <- <- <-. cbn [fst] in D, C. cbn [description].
    rewrite <- D. eapply IH; [rewrite C; exact O|exact ER].
  - destruct (get_status t) as [s|] eqn:ES; [|discriminate]. injection ED as <- <- <-. cbn [description].
    replace (mt_desc t) with (saved_desc (Some s)) at 2; [eapply IH; [exact O|exact ER]|].
    unfold get_status in ES. destruct (path0 (mt_conf t)); [|discriminate]. cbn [bind] in ES. injection ES as <-. reflexivity.
  - destruct st as [s|].
    + destruct (set_status veqb (with_random rnd cf) s) as [t0|] eqn:ES; [|discriminate]. injection ED as <- <- <-. cbn [description saved_desc].
      unfold set_status in ES. destruct (set_root (mc_tree (with_random rnd cf)) (mst_root s)) as [root|]; [|discriminate]. destruct (path0 (with_random rnd cf)) as [p|]; [|discriminate]. cbn [bind] in ES.
      destruct (list_eqb veqb (mst_path0 s) p); [|discriminate]. injection ES as <-. refine (IH _ (Some s) _ _ _ _ ER). reflexivity.
    + injection ED as <- <- <-. cbn [description saved_desc]. refine (IH _ None _ _ _ _ ER). reflexivity.
Qed.
End Description.
