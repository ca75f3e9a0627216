(** Proofs about the job manager (C28). *)
From Coq Require Import Permutation.
From Verif Require Import Base Bytes JobModel JobSpec.

Section Proofs.
Context {J R S : Type}.
Variable src : source J R S.
Variable runs : J -> ran R -> Prop.
Variable passed : exn -> bool.

Lemma set_nth_length {A} (l : list A) : forall i x, List.length (set_nth l i x) = List.length l.
Proof. induction l as [|y l IH]; intros [|i] x; cbn; auto. Qed.

Lemma busy_take w : forall i (j : J), nth_error w i = Some None -> Permutation (busy (set_nth w i (Some j))) (j :: busy w).
Proof.
  induction w as [|y w IH]; intros [|i] j E; cbn [nth_error] in E; try discriminate.
  - injection E as ->. cbn. constructor. apply Permutation_refl.
  - cbn [set_nth]. unfold busy in *. cbn [flat_map]. rewrite (IH i j E). destruct y; [apply perm_swap|apply Permutation_refl].
Qed.

Lemma busy_done w : forall i (j : J), nth_error w i = Some (Some j) -> Permutation (j :: busy (set_nth w i None)) (busy w).
Proof.
  induction w as [|y w IH]; intros [|i] j E; cbn [nth_error] in E; try discriminate.
  - injection E as ->. cbn. apply Permutation_refl.
  - cbn [set_nth]. unfold busy in *. cbn [flat_map]. rewrite <- (IH i j E). destruct y; [apply perm_swap|apply Permutation_refl].
Qed.

Lemma busy_repeat n : busy (repeat (@None J) n) = [].
Proof. induction n; cbn; auto. Qed.

Lemma busy_length (w : list (option J)) : (List.length (busy w) <= List.length w)%nat.
Proof. unfold busy. induction w as [|[] w IH]; cbn [flat_map app List.length]; lia. Qed.

Lemma obtained_snoc (ls : list (label J R)) l : obtained (ls ++ [l]) = obtained ls ++ (match l with LGet (Some j) => [j] | _ => [] end).
Proof. unfold obtained. rewrite flat_map_app. cbn [flat_map]. rewrite app_nil_r. reflexivity. Qed.
Lemma started_snoc (ls : list (label J R)) l : started (ls ++ [l]) = started ls ++ (match l with LTake _ j => [j] | _ => [] end).
Proof. unfold started. rewrite flat_map_app. cbn [flat_map]. rewrite app_nil_r. reflexivity. Qed.
Lemma finished_snoc (ls : list (label J R)) l : finished (ls ++ [l]) = finished ls ++ (match l with LFinish _ j x => [(j, x)] | _ => [] end).
Proof. unfold finished. rewrite flat_map_app. cbn [flat_map]. rewrite app_nil_r. reflexivity. Qed.
Lemma delivered_snoc (ls : list (label J R)) l : delivered (ls ++ [l]) = delivered ls ++ (match l with LDeliver o => [o] | LDeliverError o _ => [o] | _ => [] end).
Proof. unfold delivered. rewrite flat_map_app. cbn [flat_map]. rewrite app_nil_r. reflexivity. Qed.
Lemma calls_snoc (ls : list (label J R)) l : calls (ls ++ [l]) = calls ls ++ (match l with
  | LGet a => [CallGet (Ok a)] | LGetError e => [CallGet (Err e)] | LDeliver o => [CallDeliver o (Ok tt)]
  | LDeliverError o e => [CallDeliver o (Err e)] | _ => [] end).
Proof. unfold calls. rewrite flat_map_app. cbn [flat_map]. rewrite app_nil_r. reflexivity. Qed.

Definition pend_ok (pend : list (J * ran R)) : Prop := Forall (fun p => runs (fst p) (snd p)) pend.
Definition outs (pend : list (J * ran R)) : list (outcome J R) := map (fun p => outcome_of (fst p) (snd p)) pend.

Definition live (n : nat) (s0 : S) (ls : list (label J R)) (st : msys J R S) (pend : list (J * ran R)) : Prop :=
  ms_active st = (List.length (ms_queue st) + List.length (busy (ms_workers st)) + List.length (ms_resp st))%nat /\
  (ms_active st <= n)%nat /\
  exists l, history src runs n s0 [] (calls ls) (ms_src st) l /\ Permutation l (ms_queue st ++ busy (ms_workers st) ++ map fst pend).

Definition MInv (n : nat) (s0 : S) (ls : list (label J R)) (st : msys J R S) : Prop :=
  List.length (ms_workers st) = n /\
  obtained ls = started ls ++ ms_queue st /\
  Permutation (started ls) (busy (ms_workers st) ++ map fst (finished ls)) /\
  Forall (fun p => runs (fst p) (snd p)) (finished ls) /\
  (exists pend, ms_resp st = outs pend /\ pend_ok pend /\ (exists fin, finished ls = fin ++ pend /\ delivered ls = outs fin) /\
    match ms_pc st with
    | MTop => live n s0 ls st pend
    | MWait => live n s0 ls st pend /\ (0 < ms_active st)%nat
    | MReturned => live n s0 ls st pend /\ ms_active st = 0%nat /\ exists cs, calls ls = cs ++ [CallGet (Ok None)]
    | MRaised e => exists e0, e = reraise passed e0 /\ history_raises src runs n s0 [] (calls ls) (ms_src st) e0
    end) /\
  delivered ls ++ ms_resp st = outs (finished ls) /\
  (List.length (obtained ls) <= n + List.length (delivered ls))%nat.

Lemma outs_app a b : outs (a ++ b) = outs a ++ outs b.
Proof. apply map_app. Qed.

Lemma deliver_history n s0 cs s l1 j (x : ran R) l2 s' : history src runs n s0 [] cs s (l1 ++ j :: l2) -> runs j x ->
  s_deliver src (outcome_of j x) s (Ok tt) s' -> history src runs n s0 [] (cs ++ [CallDeliver (outcome_of j x) (Ok tt)]) s' (l1 ++ l2).
Proof. intros H HR D. destruct x; cbn [outcome_of s_deliver] in *; [eapply h_response; eauto|eapply h_error; eauto]. Qed.

Lemma deliver_raises n s0 cs s l1 j (x : ran R) l2 s' e : history src runs n s0 [] cs s (l1 ++ j :: l2) -> runs j x ->
  s_deliver src (outcome_of j x) s (Err e) s' -> history_raises src runs n s0 [] (cs ++ [CallDeliver (outcome_of j x) (Err e)]) s' e.
Proof. intros H HR D. destruct x; cbn [outcome_of s_deliver] in *; [eapply hr_response; eauto|eapply hr_error; eauto]. Qed.

Lemma MInv_init n s0 : MInv n s0 [] (minit n s0).
Proof.
  unfold MInv, minit. cbn [ms_workers ms_queue ms_resp ms_pc ms_active ms_src]. rewrite repeat_length, busy_repeat.
  split; [reflexivity|]. split; [reflexivity|]. split; [constructor|]. split; [constructor|]. split; [|split; [reflexivity|cbn; lia]].
  exists []. split; [reflexivity|]. split; [constructor|]. split; [exists []; split; reflexivity|]. unfold live. cbn [ms_workers ms_queue ms_resp ms_pc ms_active ms_src].
  rewrite busy_repeat. cbn. split; [reflexivity|]. split; [lia|]. exists []. split; constructor.
Qed.

Lemma PF_deliver fs ds j x pend : (exists fin, fs = fin ++ (j, x) :: pend /\ ds = outs fin) ->
  exists fin, fs = fin ++ pend /\ ds ++ [outcome_of j x] = outs fin.
Proof. intros (fin & -> & ->). exists (fin ++ [(j, x)]). rewrite <- app_assoc, outs_app. split; reflexivity. Qed.

Lemma MInv_step n s0 ls st l st' : (0 < n)%nat -> MInv n s0 ls st -> mstep src runs passed n st l st' -> MInv n s0 (ls ++ [l]) st'.
Proof.
  intros NP (W & O & ST & F & (pend & E & PK & PF & PC) & D & B) H.
  unfold MInv. rewrite obtained_snoc, started_snoc, finished_snoc, delivered_snoc, !calls_snoc.
  destruct H; cbn [ms_workers ms_queue ms_resp ms_pc ms_active ms_src] in *; rewrite ?app_nil_r.
  - (* job *)
    destruct PC as (A1 & A2 & lf & HI & HP). cbn [ms_workers ms_queue ms_resp ms_pc ms_active ms_src] in *.
    assert (List.length lf = a) as LL.
    { rewrite (Permutation_length HP), !app_length, map_length, A1, E. unfold outs. rewrite map_length. lia. }
    split; [exact W|]. split; [rewrite O, app_assoc; reflexivity|]. split; [exact ST|]. split; [exact F|]. split; [|split; [exact D|]].
    + exists pend. split; [exact E|]. split; [exact PK|]. split; [exact PF|]. unfold live. cbn [ms_workers ms_queue ms_resp ms_pc ms_active ms_src].
      rewrite app_length. cbn [List.length]. split; [lia|]. split; [lia|]. exists (j :: lf). rewrite calls_snoc. split.
      * eapply h_job; eauto. lia.
      * rewrite <- app_assoc. cbn [app]. rewrite HP. apply Permutation_middle.
    + rewrite O. rewrite !app_length. cbn [List.length].
      apply (f_equal (@List.length _)) in D. rewrite app_length in D. unfold outs in D. rewrite map_length in D.
      apply Permutation_length in ST. rewrite app_length, map_length in ST. lia.
  - (* no job *)
    destruct PC as (A1 & A2 & lf & HI & HP). cbn [ms_workers ms_queue ms_resp ms_pc ms_active ms_src] in *.
    assert (List.length lf = a) as LL.
    { rewrite (Permutation_length HP), !app_length, map_length, A1, E. unfold outs. rewrite map_length. lia. }
    split; [exact W|]. split; [exact O|]. split; [exact ST|]. split; [exact F|]. split; [|split; [exact D|exact B]].
    exists pend. split; [exact E|]. split; [exact PK|]. split; [exact PF|].
    assert (live n s0 (ls ++ [LGet None]) (mkMS s' q w r a (if Nat.eqb a 0 then MReturned else MWait)) pend) as LV.
    { unfold live. cbn [ms_workers ms_queue ms_resp ms_pc ms_active ms_src]. split; [exact A1|]. split; [exact A2|]. exists lf. rewrite calls_snoc.
      split; [eapply h_nojob; eauto; lia|exact HP]. }
    destruct (Nat.eqb_spec a 0) as [Z|Z]; (split; [exact LV|]).
    + split; [exact Z|]. eauto.
    + cbn [ms_active]. lia.
  - (* get error *)
    destruct PC as (A1 & A2 & lf & HI & HP). cbn [ms_workers ms_queue ms_resp ms_pc ms_active ms_src] in *.
    assert (List.length lf = a) as LL.
    { rewrite (Permutation_length HP), !app_length, map_length, A1, E. unfold outs. rewrite map_length. lia. }
    split; [exact W|]. split; [exact O|]. split; [exact ST|]. split; [exact F|]. split; [|split; [exact D|exact B]].
    exists pend. split; [exact E|]. split; [exact PK|]. split; [exact PF|]. exists e. split; [reflexivity|].
    eapply hr_get; eauto. lia.
  - (* full *)
    destruct PC as (A1 & A2 & lf & HI & HP). cbn [ms_workers ms_queue ms_resp ms_pc ms_active ms_src] in *.
    split; [exact W|]. split; [exact O|]. split; [exact ST|]. split; [exact F|]. split; [|split; [exact D|exact B]].
    exists pend. split; [exact E|]. split; [exact PK|]. split; [exact PF|].
    destruct (Nat.eqb_spec a 0) as [Z|Z]; [lia|].
    split; [|lia]. unfold live. rewrite calls_snoc, app_nil_r. cbn [ms_workers ms_queue ms_resp ms_pc ms_active ms_src]. eauto.
  - (* deliver *)
    destruct PC as ((A1 & A2 & lf & HI & HP) & A3). cbn [ms_workers ms_queue ms_resp ms_pc ms_active ms_src] in *.
    destruct pend as [|[j x] pend]; [discriminate|]. cbn [outs map fst snd] in E. injection E as -> E. inversion PK as [|? ? PK1 PK2]; subst.
    cbn [fst snd] in PK1.
    split; [reflexivity|]. split; [exact O|]. split; [exact ST|]. split; [exact F|]. split; [|split].
    + exists pend. split; [reflexivity|]. split; [exact PK2|]. split; [eapply PF_deliver; eauto|]. unfold live. rewrite calls_snoc. cbn [ms_workers ms_queue ms_resp ms_pc ms_active ms_src List.length] in *.
      split; [lia|]. split; [lia|].
      assert (In j lf) as IJ.
      { eapply Permutation_in; [symmetry; exact HP|]. apply in_or_app. right. apply in_or_app. right. left. reflexivity. }
      apply in_split in IJ. destruct IJ as (l1 & l2 & ->). exists (l1 ++ l2). split.
      * eapply deliver_history; eauto.
      * cbn [map fst] in HP. apply Permutation_cons_inv with j.
        rewrite Permutation_middle, HP. rewrite (app_assoc q), (app_assoc q). symmetry. apply Permutation_middle.
    + rewrite <- app_assoc. exact D.
    + rewrite app_length. cbn [List.length]. lia.
  - (* deliver error *)
    destruct PC as ((A1 & A2 & lf & HI & HP) & A3). cbn [ms_workers ms_queue ms_resp ms_pc ms_active ms_src] in *.
    destruct pend as [|[j x] pend]; [discriminate|]. cbn [outs map fst snd] in E. injection E as -> E. inversion PK as [|? ? PK1 PK2]; subst.
    cbn [fst snd] in PK1.
    split; [reflexivity|]. split; [exact O|]. split; [exact ST|]. split; [exact F|]. split; [|split].
    + exists pend. split; [reflexivity|]. split; [exact PK2|]. split; [eapply PF_deliver; eauto|]. exists e. split; [reflexivity|].
      assert (In j lf) as IJ.
      { eapply Permutation_in; [symmetry; exact HP|]. apply in_or_app. right. apply in_or_app. right. left. reflexivity. }
      apply in_split in IJ. destruct IJ as (l1 & l2 & ->). eapply deliver_raises; eauto.
    + rewrite <- app_assoc. exact D.
    + rewrite app_length. cbn [List.length]. lia.
  - (* take *)
    assert (Permutation (busy (set_nth w i (Some j))) (j :: busy w)) as P by (apply busy_take; assumption).
    split; [rewrite set_nth_length; exact W|]. split; [rewrite O, <- app_assoc; reflexivity|].
    split; [rewrite P, <- Permutation_cons_append; cbn [app]; constructor; exact ST|]. split; [exact F|].
    split; [|split; [exact D|exact B]]. exists pend. split; [exact E|]. split; [exact PK|]. split; [exact PF|].
    assert (live n s0 ls (mkMS s (j :: q) w r a pc) pend -> live n s0 (ls ++ [LTake i j]) (mkMS s q (set_nth w i (Some j)) r a pc) pend) as LV.
    { intros (A1 & A2 & lf & HI & HP). unfold live. rewrite calls_snoc, app_nil_r. cbn [ms_workers ms_queue ms_resp ms_pc ms_active ms_src List.length] in *.
      rewrite (Permutation_length P). cbn [List.length]. split; [lia|]. split; [exact A2|]. exists lf. split; [exact HI|]. rewrite HP, P. cbn [app]. apply Permutation_middle. }
    destruct pc; cbn [ms_pc ms_active] in *; try tauto.
  - (* finish *)
    assert (Permutation (j :: busy (set_nth w i None)) (busy w)) as P by (apply busy_done; assumption).
    split; [rewrite set_nth_length; exact W|]. split; [exact O|].
    split. { rewrite map_app. cbn [map fst]. rewrite ST, <- P. cbn [app].
             rewrite (app_assoc (busy _)), <- Permutation_cons_append. constructor. apply Permutation_refl. }
    split; [apply Forall_app; split; [exact F|constructor; [assumption|constructor]]|].
    split; [|split; [rewrite outs_app, app_assoc, D; reflexivity|exact B]].
    exists (pend ++ [(j, x)]). split; [rewrite outs_app, E; reflexivity|].
    split; [apply Forall_app; split; [exact PK|constructor; [assumption|constructor]]|].
    split; [destruct PF as (fin & F1 & F2); exists fin; rewrite F1, app_assoc; split; [reflexivity|exact F2]|].
    assert (live n s0 ls (mkMS s q w r a pc) pend -> live n s0 (ls ++ [LFinish i j x]) (mkMS s q (set_nth w i None) (r ++ [outcome_of j x]) a pc) (pend ++ [(j, x)])) as LV.
    { intros (A1 & A2 & lf & HI & HP). unfold live. rewrite calls_snoc, app_nil_r. cbn [ms_workers ms_queue ms_resp ms_pc ms_active ms_src List.length] in *.
      apply Permutation_length in P as PL. cbn [List.length] in PL. rewrite app_length. cbn [List.length].
      split; [lia|]. split; [exact A2|]. exists lf. split; [exact HI|]. rewrite HP. apply Permutation_app_head.
      rewrite <- P. cbn [app]. rewrite map_app. cbn [map fst]. rewrite (app_assoc (busy _)), <- Permutation_cons_append. constructor. apply Permutation_refl. }
    destruct pc; cbn [ms_pc ms_active] in *; try tauto.
Qed.

Lemma mrun_inv n s0 st0 ls st : (0 < n)%nat -> mrun src runs passed n st0 ls st -> st0 = minit n s0 -> MInv n s0 ls st.
Proof.
  intros NP H. induction H as [st|st ls st1 l st2 H IH HS]; intros ->; [apply MInv_init|]. eapply MInv_step; eauto.
Qed.

(** ** No deadlock *)
Lemma worker_exists w : (List.length (busy w) < List.length w)%nat -> exists i, nth_error w i = Some (@None J).
Proof.
  induction w as [|[j|] w IH]; cbn [busy flat_map app List.length]; intros H; [lia| |exists 0%nat; reflexivity].
  destruct IH as (i & E); [unfold busy; lia|]. exists (Datatypes.S i). exact E.
Qed.
Lemma busy_exists w j l : busy w = (j : J) :: l -> exists i, nth_error w i = Some (Some j).
Proof.
  induction w as [|[k|] w IH]; cbn [busy flat_map app]; intros H; [discriminate| |].
  - injection H as -> H. exists 0%nat. reflexivity.
  - destruct (IH H) as (i & E). exists (Datatypes.S i). exact E.
Qed.

Lemma no_deadlock n s0 ls st : (0 < n)%nat -> mrun src runs passed n (minit n s0) ls st ->
  (forall s, exists x s', s_get src s x s') -> (forall o s, exists x s', s_deliver src o s x s') -> (forall j, exists x, runs j x) ->
  ms_pc st = MTop \/ ms_pc st = MWait -> exists l st', mstep src runs passed n st l st'.
Proof.
  intros NP H SG SD SR PC. destruct (mrun_inv _ _ _ _ _ NP H eq_refl) as (W & _ & _ & _ & (pend & E & _ & _ & I) & _).
  destruct st as [s q w r a pc]. cbn [ms_workers ms_queue ms_resp ms_pc ms_active ms_src] in *.
  destruct PC as [-> | ->].
  - destruct (le_lt_dec n a) as [L|L]; [eexists _, _; apply m_full; lia|].
    destruct (SG s) as ([[j|]|e] & s' & G); eexists _, _; [eapply m_job|eapply m_nojob|eapply m_get_error]; eauto.
  - destruct I as ((A1 & A2 & lf & HI & HP) & A3). cbn [ms_workers ms_queue ms_resp ms_pc ms_active ms_src] in *.
    destruct r as [|o r].
    + destruct (busy w) as [|j l] eqn:EB.
      * destruct q as [|j q]; [cbn [List.length] in A1; lia|]. destruct (worker_exists w) as (i & EI); [rewrite EB; cbn; lia|].
        eexists _, _. eapply m_take; eauto.
      * destruct (busy_exists _ _ _ EB) as (i & EI). destruct (SR j) as (x & HX). eexists _, _. eapply m_finish; eauto.
    + destruct (SD o s) as ([[]|e] & s' & G); eexists _, _; [eapply m_deliver|eapply m_deliver_error]; eauto.
Qed.

(** ** Bounded length *)
Definition nstop (ls : list (label J R)) : nat := List.length (flat_map (fun l => match l with LGet None => [tt] | LFull => [tt] | LGetError _ => [tt] | _ => [] end) ls).
Lemma nstop_snoc ls l : nstop (ls ++ [l]) = (nstop ls + match l with LGet None => 1 | LFull => 1 | LGetError _ => 1 | _ => 0 end)%nat.
Proof. unfold nstop. rewrite flat_map_app, app_length. destruct l as [[]| | | | | |]; cbn; lia. Qed.

Lemma length_split ls : List.length ls = (List.length (obtained ls) + List.length (started ls) + List.length (finished ls) + List.length (delivered ls) + nstop ls)%nat.
Proof.
  induction ls as [|l ls IH] using rev_ind; [reflexivity|]. rewrite app_length, obtained_snoc, started_snoc, finished_snoc, delivered_snoc, nstop_snoc, !app_length.
  destruct l as [[]| | | | | |]; cbn [List.length]; lia.
Qed.

Lemma nstop_bound n st0 ls st : mrun src runs passed n st0 ls st ->
  forall s0, st0 = minit n s0 -> match ms_pc st with
  | MTop => (nstop ls = List.length (delivered ls))%nat
  | MWait | MReturned => nstop ls = Datatypes.S (List.length (delivered ls))
  | MRaised _ => (nstop ls <= Datatypes.S (List.length (delivered ls)))%nat
  end.
Proof.
  induction 1 as [st|st ls st1 l st2 H IH HS]; intros s0 ->; [reflexivity|]. specialize (IH s0 eq_refl).
  rewrite nstop_snoc, delivered_snoc, app_length.
  destruct HS; cbn [ms_pc] in *; cbn [List.length]; try destruct (Nat.eqb a 0); try destruct pc; lia.
Qed.

Lemma bounded_length n s0 ls st : (0 < n)%nat -> mrun src runs passed n (minit n s0) ls st ->
  (List.length ls <= 5 * List.length (obtained ls) + 1)%nat.
Proof.
  intros NP H. destruct (mrun_inv _ _ _ _ _ NP H eq_refl) as (_ & O & ST & _ & _ & D & _).
  pose proof (nstop_bound _ _ _ _ H s0 eq_refl) as N. rewrite length_split.
  apply (f_equal (@List.length _)) in D. rewrite app_length in D. unfold outs in D. rewrite map_length in D.
  apply Permutation_length in ST. rewrite app_length, map_length in ST.
  apply (f_equal (@List.length _)) in O. rewrite app_length in O.
  destruct (ms_pc st); lia.
Qed.

(** ** In-process *)
Definition IInv (s0 : S) (ls : list (label J R)) (st : S * ipc J R) : Prop :=
  match snd st with
  | ITop => history src runs 1 s0 [] (calls ls) (fst st) [] /\ obtained ls = map fst (finished ls) /\ delivered ls = outs (finished ls)
  | IRun j => history src runs 1 s0 [] (calls ls) (fst st) [j] /\ obtained ls = map fst (finished ls) ++ [j] /\ delivered ls = outs (finished ls)
  | IDeliver o => exists j x, o = outcome_of j x /\ runs j x /\ history src runs 1 s0 [] (calls ls) (fst st) [j] /\
      obtained ls = map fst (finished ls) /\ delivered ls ++ [o] = outs (finished ls)
  | IReturned => history src runs 1 s0 [] (calls ls) (fst st) [] /\ obtained ls = map fst (finished ls) /\ delivered ls = outs (finished ls) /\
      exists cs, calls ls = cs ++ [CallGet (Ok None)]
  | IRaised e => exists e0, e = reraise passed e0 /\ history_raises src runs 1 s0 [] (calls ls) (fst st) e0 /\
      obtained ls = map fst (finished ls) /\ delivered ls = outs (finished ls)
  end /\ Forall (fun p => runs (fst p) (snd p)) (finished ls).

Lemma irun_inv st0 ls st : irun src runs passed st0 ls st -> forall s0, st0 = (s0, ITop) -> IInv s0 ls st.
Proof.
  induction 1 as [st|st ls st1 l st2 H IH HS]; intros s0 ->.
  - split; [split; [constructor|split; reflexivity]|constructor].
  - specialize (IH s0 eq_refl). unfold IInv in *. rewrite obtained_snoc, finished_snoc, delivered_snoc, calls_snoc.
    destruct HS; cbn [fst snd] in *; rewrite ?app_nil_r; destruct IH as (IH & F); (split; [|first [exact F|apply Forall_app; split; [exact F|constructor; [assumption|constructor]]]]).
    + destruct IH as (A & B & C). split; [eapply h_job; eauto; cbn; lia|]. split; [congruence|exact C].
    + destruct IH as (A & B & C). split; [eapply h_nojob; eauto; cbn; lia|]. eauto.
    + destruct IH as (A & B & C). exists e. split; [reflexivity|]. split; [|auto]. eapply hr_get; eauto.
    + destruct IH as (A & B & C). exists j, x. split; [reflexivity|]. split; [assumption|]. split; [exact A|].
      rewrite map_app, outs_app, B, C. split; reflexivity.
    + destruct IH as (j & x & -> & HR & A & B & C). split; [|auto]. exact (deliver_history 1 s0 _ _ [] j x [] _ A HR H0).
    + destruct IH as (j & x & -> & HR & A & B & C). exists e. split; [reflexivity|]. split; [|auto]. exact (deliver_raises 1 s0 _ _ [] j x [] _ e A HR H0).
Qed.

End Proofs.

Section Final.
Context {J R S : Type}.
Variable src : source J R S.
Variable runs : J -> ran R -> Prop.
Variable passed : exn -> bool.

Lemma C28_each_job_run_once_proof n s0 ls st :
  (1 <= n)%nat -> mrun src runs passed n (minit n s0) ls st ->
  obtained ls = started ls ++ ms_queue st /\
  Permutation (started ls) (busy (ms_workers st) ++ map fst (finished ls)) /\
  Forall (fun p => runs (fst p) (snd p)) (finished ls) /\
  delivered ls ++ ms_resp st = map (fun p => outcome_of (fst p) (snd p)) (finished ls) /\
  (List.length (obtained ls) <= n + List.length (delivered ls))%nat /\
  (List.length (busy (ms_workers st)) <= n)%nat.
Proof.
  intros NP H. destruct (mrun_inv _ _ _ _ _ _ _ _ NP H eq_refl) as (W & O & ST & F & _ & D & B).
  pose proof (busy_length (ms_workers st)) as BL. rewrite W in BL.
  do 5 (split; [assumption|]). exact BL.
Qed.

Lemma C28_returns_proof n s0 ls st :
  (1 <= n)%nat -> mrun src runs passed n (minit n s0) ls st -> ms_pc st = MReturned ->
  Permutation (obtained ls) (map fst (finished ls)) /\
  delivered ls = map (fun p => outcome_of (fst p) (snd p)) (finished ls) /\
  ms_queue st = [] /\ busy (ms_workers st) = [] /\ ms_resp st = [] /\
  history src runs n s0 [] (calls ls) (ms_src st) [] /\
  exists cs, calls ls = cs ++ [CallGet (Ok None)].
Proof.
  intros NP H E. destruct (mrun_inv _ _ _ _ _ _ _ _ NP H eq_refl) as (W & O & ST & F & (pend & EP & PK & PF & PC) & D & B).
  rewrite E in PC. destruct PC as ((A1 & A2 & lf & HI & HP) & Z & CS). rewrite Z in A1.
  assert (ms_queue st = []) as Q by (destruct (ms_queue st); [reflexivity|cbn [List.length] in A1; lia]).
  assert (busy (ms_workers st) = []) as W0 by (destruct (busy (ms_workers st)); [reflexivity|cbn [List.length] in A1; lia]).
  assert (ms_resp st = []) as R0 by (destruct (ms_resp st); [reflexivity|cbn [List.length] in A1; lia]).
  rewrite Q, app_nil_r in O. rewrite W0 in ST. rewrite R0, app_nil_r in D. rewrite O.
  split; [exact ST|]. split; [exact D|]. do 3 (split; [assumption|]). split; [|exact CS].
  rewrite R0 in EP. destruct pend as [|p pend]; [|discriminate]. rewrite Q, W0 in HP. cbn in HP.
  apply Permutation_sym, Permutation_nil in HP. subst lf. exact HI.
Qed.

Lemma C28_calls_proof n s0 ls st :
  (1 <= n)%nat -> mrun src runs passed n (minit n s0) ls st ->
  match ms_pc st with
  | MRaised e => exists e0, e = (if passed e0 then e0 else JobSourceError) /\ history_raises src runs n s0 [] (calls ls) (ms_src st) e0
  | _ => exists l, history src runs n s0 [] (calls ls) (ms_src st) l /\ (List.length l <= n)%nat /\
           Permutation (obtained ls) (l ++ firstn (List.length (delivered ls)) (map fst (finished ls)))
  end.
Proof.
  intros NP H. destruct (mrun_inv _ _ _ _ _ _ _ _ NP H eq_refl) as (W & O & ST & F & (pend & EP & PK & PF & PC) & D & B).
  assert (live src runs n s0 ls st pend -> exists l, history src runs n s0 [] (calls ls) (ms_src st) l /\ (List.length l <= n)%nat /\
           Permutation (obtained ls) (l ++ firstn (List.length (delivered ls)) (map fst (finished ls)))) as LV.
  { intros (A1 & A2 & lf & HI & HP). exists lf. split; [exact HI|]. split.
    - apply Permutation_length in HP. rewrite !app_length, map_length in HP. apply (f_equal (@List.length _)) in EP.
      unfold outs in EP. rewrite map_length in EP. lia.
    - destruct PF as (fin & F1 & F2). rewrite F1, F2 in *. unfold outs. rewrite map_length, map_app.
      rewrite firstn_app, map_length, Nat.sub_diag. cbn [firstn]. rewrite app_nil_r, <- (map_length fst fin), firstn_all.
      rewrite O, ST, HP, map_app.
      rewrite (Permutation_app_comm _ (ms_queue st)), <- !app_assoc. apply Permutation_app_head, Permutation_app_head, Permutation_app_comm. }
  destruct (ms_pc st); cbn in PC; try tauto.
Qed.

Lemma C28_no_deadlock_proof n s0 ls st :
  (1 <= n)%nat -> mrun src runs passed n (minit n s0) ls st ->
  (forall s, exists x s', s_get src s x s') ->
  (forall r s, exists x s', s_response src r s x s') ->
  (forall j m s, exists x s', s_error src j m s x s') ->
  (forall j, exists x, runs j x) ->
  ms_pc st = MReturned \/ (exists e, ms_pc st = MRaised e) \/ exists l st', mstep src runs passed n st l st'.
Proof.
  intros NP H G1 G2 G3 G4. destruct (ms_pc st) as [| | |e] eqn:E; [right; right|right; right|left; reflexivity|right; left; eauto].
  all: eapply no_deadlock; eauto; intros [r|j m] s; cbn; eauto.
Qed.

Lemma C28_in_process_proof s0 ls s pc :
  irun src runs passed (s0, ITop) ls (s, pc) ->
  match pc with
  | IRun j => obtained ls = map fst (finished ls) ++ [j]
  | _ => obtained ls = map fst (finished ls)
  end /\
  match pc with
  | IDeliver o => delivered ls ++ [o]
  | _ => delivered ls
  end = map (fun p => outcome_of (fst p) (snd p)) (finished ls) /\
  Forall (fun p => runs (fst p) (snd p)) (finished ls) /\
  match pc with
  | IRaised e => exists e0, e = (if passed e0 then e0 else JobSourceError) /\ history_raises src runs 1 s0 [] (calls ls) s e0
  | IReturned => history src runs 1 s0 [] (calls ls) s [] /\ exists cs, calls ls = cs ++ [CallGet (Ok None)]
  | _ => exists l, history src runs 1 s0 [] (calls ls) s l
  end.
Proof.
  intros H. destruct (irun_inv _ _ _ _ _ _ H s0 eq_refl) as (I & F). cbn [fst snd] in I.
  destruct pc as [|j|o| |e].
  - destruct I as (A & B & C). eauto 6.
  - destruct I as (A & B & C). eauto 6.
  - destruct I as (j & x & -> & HR & A & B & C). eauto 6.
  - destruct I as (A & B & C & D). eauto 8.
  - destruct I as (e0 & E & A & B & C). split; [exact B|]. split; [exact C|]. split; [exact F|]. exists e0. split; [exact E|exact A].
Qed.
End Final.
