(** Proofs about dying workers and shutting down (C87). *)
From Coq Require Import Permutation.
From Verif Require Import Base Bytes JobModel JobSpec JobProofs WorkersModel WorkersSpec.

Section Proofs.
Context {J R S : Type}.
Variable src : source J R S.
Variable runs : J -> ran R -> Prop.
Variable passed : exn -> bool.

Lemma held_put (w : list (worker J)) : forall i j, nth_error w i = Some WIdle -> Permutation (held (set_nth w i (WJob j))) (j :: held w).
Proof.
  induction w as [|y w IH]; intros [|i] j E; cbn [nth_error] in E; try discriminate.
  - injection E as ->. cbn. apply Permutation_refl.
  - cbn [set_nth]. unfold held in *. cbn [flat_map]. rewrite (IH i j E). destruct y; try apply perm_swap; apply Permutation_refl.
Qed.
Lemma held_drop (w : list (worker J)) x : (match x with WJob _ => False | _ => True end) ->
  forall i j, nth_error w i = Some (WJob j) -> Permutation (j :: held (set_nth w i x)) (held w).
Proof.
  intros X. induction w as [|y w IH]; intros [|i] j E; cbn [nth_error] in E; try discriminate.
  - injection E as ->. destruct x; try contradiction; cbn; apply Permutation_refl.
  - cbn [set_nth]. unfold held in *. cbn [flat_map]. rewrite <- (IH i j E). destruct y; try apply perm_swap; apply Permutation_refl.
Qed.
Lemma held_same (w : list (worker J)) x : (match x with WJob _ => False | _ => True end) ->
  forall i, nth_error w i = Some WIdle -> held (set_nth w i x) = held w.
Proof.
  intros X. induction w as [|y w IH]; intros [|i] E; cbn [nth_error] in E; try discriminate.
  - injection E as ->. destruct x; try contradiction; reflexivity.
  - cbn [set_nth]. unfold held in *. cbn [flat_map]. rewrite (IH i E). reflexivity.
Qed.
Lemma held_repeat n : held (repeat (@WIdle J) n) = [].
Proof. induction n; cbn; auto. Qed.

(** Numbers of workers. *)
Definition is_gone (x : worker J) : nat := match x with WGone => 1 | _ => 0 end.
Definition is_dead (x : worker J) : nat := match x with WDead => 1 | _ => 0 end.
Definition total (f : worker J -> nat) (w : list (worker J)) : nat := list_sum (map f w).
Lemma total_set f (w : list (worker J)) : forall i x y, nth_error w i = Some x -> (total f (set_nth w i y) + f x = total f w + f y)%nat.
Proof.
  unfold total, list_sum. induction w as [|z w IH]; intros [|i] x y E; cbn [nth_error] in E; try discriminate.
  - injection E as ->. cbn. lia.
  - cbn [set_nth map fold_right]. specialize (IH i x y E). lia.
Qed.
Lemma total_repeat f n : f WIdle = 0%nat -> total f (repeat WIdle n) = 0%nat.
Proof. intros F. unfold total, list_sum. induction n; cbn [repeat map fold_right]; [reflexivity|rewrite F; exact IHn]. Qed.
Lemma total_le (w : list (worker J)) : (total is_gone w + total is_dead w + List.length (held w) <= List.length w)%nat.
Proof.
  unfold total, list_sum, held. induction w as [|x w IH]; cbn [map fold_right List.length flat_map]; [lia|].
  rewrite app_length. destruct x; cbn; lia.
Qed.

Lemma events_snoc (ls : list (flabel J R)) l : events (ls ++ [l]) = events ls ++ (match l with Lab l => [l] | _ => [] end).
Proof. unfold events. rewrite flat_map_app. cbn [flat_map]. rewrite app_nil_r. reflexivity. Qed.
Lemma lost_snoc (ls : list (flabel J R)) l : lost (ls ++ [l]) = lost ls ++ (match l with LDie _ (Some j) => [j] | _ => [] end).
Proof. unfold lost. rewrite flat_map_app. cbn [flat_map]. rewrite app_nil_r. reflexivity. Qed.
Lemma deaths_snoc (ls : list (flabel J R)) l : deaths (ls ++ [l]) = (deaths ls + match l with LDie _ _ => 1 | _ => 0 end)%nat.
Proof. unfold deaths. rewrite filter_app, app_length. f_equal. destruct l; reflexivity. Qed.

Definition closing (pc : fpc) : bool := match pc with FJoin _ | FDone _ => true | _ => false end.
Definition later (pc : fpc) : nat := match pc with FTop => 0 | FWait => 1 | FEnded _ => 1 | FJoin _ => 2 | FDone _ => 3 end.

Definition shape (q : list (item J)) : Prop := exists js k, q = map IJob js ++ repeat IFinish k.

Record FInv (n : nat) (ls : list (flabel J R)) (st : fsys J R S) : Prop := mkFInv {
  v_workers : List.length (fs_workers st) = n;
  v_obtained : obtained (events ls) = started (events ls) ++ queued (fs_queue st);
  v_started : Permutation (started (events ls)) (held (fs_workers st) ++ lost ls ++ map fst (finished (events ls)));
  v_runs : Forall (fun p => runs (fst p) (snd p)) (finished (events ls));
  v_delivered : delivered (events ls) ++ fs_resp st = outs (finished (events ls));
  v_active : match how (fs_pc st) with
             | Some (Raised _) => (List.length (obtained (events ls)) <= n + List.length (delivered (events ls)))%nat
             | _ => (fs_active st + List.length (delivered (events ls)) = List.length (obtained (events ls)))%nat /\ (fs_active st <= n)%nat
             end;
  v_wait : match fs_pc st with FWait => (0 < fs_active st)%nat | _ => match how (fs_pc st) with Some Returned => fs_active st = 0%nat | _ => True end end;
  v_queue : shape (fs_queue st);
  v_signals : (List.length (fs_queue st) + total is_gone (fs_workers st) = List.length (queued (fs_queue st)) + if closing (fs_pc st) then n else 0)%nat;
  v_gone : (0 < total is_gone (fs_workers st))%nat -> queued (fs_queue st) = [];
  v_deaths : total is_dead (fs_workers st) = deaths ls;
  v_done : match fs_pc st with FDone _ => Forall (@gone_or_dead J) (fs_workers st) | _ => True end;
  v_steps : (List.length ls <= List.length (obtained (events ls)) + List.length (started (events ls)) + List.length (finished (events ls)) +
             2 * List.length (delivered (events ls)) + total is_gone (fs_workers st) + total is_dead (fs_workers st) + later (fs_pc st))%nat
}.

Lemma queued_app a b : @queued J (a ++ b) = queued a ++ queued b.
Proof. unfold queued. apply flat_map_app. Qed.
Lemma queued_finish n : @queued J (repeat IFinish n) = [].
Proof. induction n; cbn; auto. Qed.
Lemma queued_jobs l : @queued J (map IJob l) = l.
Proof. induction l as [|j l IH]; [reflexivity|]. unfold queued in *. cbn [map flat_map app]. rewrite IH. reflexivity. Qed.
Lemma queued_le (q : list (item J)) : (List.length (queued q) <= List.length q)%nat.
Proof. induction q as [|x q IH]; [cbn; lia|]. unfold queued in *. destruct x; cbn [flat_map app List.length]; lia. Qed.
Lemma queued_snoc_job q j : @queued J (q ++ [IJob j]) = queued q ++ [j].
Proof. rewrite queued_app. reflexivity. Qed.
Lemma queued_job j q : @queued J (IJob j :: q) = j :: queued q.
Proof. reflexivity. Qed.
Lemma queued_signal q : @queued J (IFinish :: q) = queued q.
Proof. reflexivity. Qed.
Lemma outs_snoc (l : list (J * ran R)) p : outs (l ++ [p]) = outs l ++ [outcome_of (fst p) (snd p)].
Proof. unfold outs. rewrite map_app. reflexivity. Qed.

Lemma Forall_set_nth {A} (P : A -> Prop) (w : list A) : forall i x, Forall P w -> P x -> Forall P (set_nth w i x).
Proof. induction w as [|y w IH]; intros [|i] x F X; cbn; inversion F; subst; constructor; auto. Qed.

Lemma nth_Forall {A} (P : A -> Prop) (w : list A) i x : Forall P w -> nth_error w i = Some x -> P x.
Proof. intros F E. apply nth_error_In in E. rewrite Forall_forall in F. exact (F _ E). Qed.

Lemma shape_job q j : shape q -> List.length q = List.length (queued q) -> shape (q ++ [IJob j]).
Proof.
  intros (js & k & ->) L. rewrite queued_app, queued_jobs, queued_finish, app_nil_r, app_length, map_length, repeat_length in L.
  assert (k = 0%nat) as -> by lia. exists (js ++ [j]), 0%nat. cbn [repeat]. rewrite !app_nil_r, map_app. reflexivity.
Qed.
Lemma shape_signals q n : shape q -> shape (q ++ repeat IFinish n).
Proof. intros (js & k & ->). exists js, (k + n)%nat. rewrite repeat_app, app_assoc. reflexivity. Qed.
Lemma shape_take j q : shape (IJob j :: q) -> shape q.
Proof.
  intros ([|j' js] & k & E).
  - destruct k; discriminate.
  - cbn in E. injection E as _ ->. exists js, k. reflexivity.
Qed.
Lemma shape_leave q : shape (IFinish :: q) -> shape q /\ queued q = [].
Proof.
  intros ([|j' js] & k & E); [|discriminate]. destruct k as [|k]; [discriminate|]. cbn in E. injection E as ->.
  split; [exists [], k; reflexivity|apply queued_finish].
Qed.

Lemma step_keeps n ls st l st' : (1 <= n)%nat -> FInv n ls st -> fstep src runs passed n st l st' -> FInv n (ls ++ [l]) st'.
Proof.
  intros N [W O P U D A T Q G GG DD DN Z] X.
  destruct X; cbn [fs_src fs_queue fs_workers fs_resp fs_active fs_pc] in *;
    constructor; cbn [fs_src fs_queue fs_workers fs_resp fs_active fs_pc];
    rewrite ?events_snoc, ?lost_snoc, ?deaths_snoc, ?obtained_snoc, ?started_snoc, ?finished_snoc, ?delivered_snoc, ?app_nil_r, ?set_nth_length,
      ?app_length, ?queued_snoc_job, ?queued_job, ?queued_signal, ?app_length in *; cbn [how closing later List.length Nat.eqb] in *; rewrite ?app_nil_r in *.
  all: try assumption.
  all: try match goal with |- context [if Nat.eqb ?a 0 then FEnded Returned else FWait] => destruct (Nat.eqb_spec a 0) end.
  all: cbn [how closing later] in *.
  all: try assumption; try lia; try exact I.
  all: try match goal with E : nth_error ?w ?i = Some ?x |- context [set_nth ?w ?i ?y] =>
    pose proof (total_set is_gone w i x y E); pose proof (total_set is_dead w i x y E); cbn [is_gone is_dead] in * end.
  all: try lia.
  all: try match goal with |- context [Forall gone_or_dead (set_nth _ _ _)] => destruct pc; try exact I; apply Forall_set_nth; [assumption|];
    match goal with E : nth_error _ _ = Some _, F : Forall gone_or_dead _ |- _ => pose proof (nth_Forall _ _ _ _ F E) as [?|?]; discriminate end end.
  all: try match goal with |- (0 < total is_gone _)%nat -> _ => let X := fresh in intros X;
    first [exact (GG ltac:(lia)) | pose proof (GG ltac:(lia)); discriminate | exact (proj2 (shape_leave _ Q))
          | exfalso; pose proof (queued_le q); lia] end.
  all: try match goal with |- shape _ => first [apply shape_job; [exact Q|pose proof (queued_le q); lia] | apply shape_signals; exact Q | exact (shape_take _ _ Q) | exact (proj1 (shape_leave _ Q))] end.
  all: try match goal with |- Forall _ (_ ++ [_]) => apply Forall_app; split; [exact U|constructor; [assumption|constructor]] end.
  all: try (rewrite outs_snoc, app_assoc, D; reflexivity).
  all: try (rewrite <- app_assoc; exact D).
  all: try (rewrite O, <- app_assoc; reflexivity).
  - rewrite P, (held_put w i j) by assumption. cbn [app]. apply Permutation_sym, Permutation_cons_append.
  - rewrite P, <- (held_drop w WIdle I i j) by assumption. rewrite map_app. cbn [map fst app].
    rewrite !app_assoc. apply Permutation_cons_append.
  - rewrite (held_same w WDead I) by assumption. exact P.
  - rewrite P, <- (held_drop w WDead I i j) by assumption. rewrite <- !app_assoc. cbn [app].
    rewrite !app_assoc. apply Permutation_middle.
  - rewrite queued_app, queued_finish, app_nil_r. exact O.
  - rewrite queued_app, queued_finish, app_nil_r, repeat_length. lia.
  - rewrite (held_same w WGone I) by assumption. exact P.
Qed.

Lemma start_inv n s0 : FInv n [] (finit n s0).
Proof.
  constructor; cbn [finit fs_src fs_queue fs_workers fs_resp fs_active fs_pc how closing later events flat_map obtained started finished delivered lost
    map List.length app outs deaths List.filter queued].
  - apply repeat_length.
  - reflexivity.
  - rewrite held_repeat. apply Permutation_refl.
  - constructor.
  - reflexivity.
  - lia.
  - exact I.
  - exists [], 0%nat. reflexivity.
  - rewrite total_repeat by reflexivity. reflexivity.
  - intros _. reflexivity.
  - apply total_repeat. reflexivity.
  - exact I.
  - lia.
Qed.

Lemma run_inv n s0 ls st : (1 <= n)%nat -> frun src runs passed n (finit n s0) ls st -> FInv n ls st.
Proof.
  intros N X. remember (finit n s0) as st0 eqn:E. induction X as [st0|st0 ls st1 l st2 _ IH Y].
  - subst st0. apply start_inv.
  - exact (step_keeps _ _ _ _ _ N (IH E) Y).
Qed.

Lemma outs_length (l : list (J * ran R)) : List.length (outs l) = List.length l.
Proof. apply map_length. Qed.

Lemma returned_proof n s0 ls st : (1 <= n)%nat -> frun src runs passed n (finit n s0) ls st -> how (fs_pc st) = Some Returned ->
  lost ls = [] /\ queued (fs_queue st) = [] /\ held (fs_workers st) = [] /\
  delivered (events ls) = map (fun p => outcome_of (fst p) (snd p)) (finished (events ls)) /\
  Permutation (obtained (events ls)) (map fst (finished (events ls))).
Proof.
  intros N X E. destruct (run_inv _ _ _ _ N X) as [W O P U D A T Q G GG DD DN Z]. rewrite E in A.
  assert (fs_active st = 0%nat) as A0 by (destruct (fs_pc st); cbn in E; try discriminate; injection E as ->; exact T).
  pose proof (Permutation_length P) as L. pose proof (f_equal (@List.length _) O) as LO. pose proof (f_equal (@List.length _) D) as LD.
  rewrite !app_length, map_length in L. rewrite app_length in LO, LD. rewrite outs_length in LD.
  assert (lost ls = []) as EL by (destruct (lost ls); [reflexivity|cbn in L; lia]).
  assert (queued (fs_queue st) = []) as EQ by (destruct (queued (fs_queue st)); [reflexivity|cbn in LO; lia]).
  assert (held (fs_workers st) = []) as EH by (destruct (held (fs_workers st)); [reflexivity|cbn in L; lia]).
  assert (fs_resp st = []) as ER by (destruct (fs_resp st); [reflexivity|cbn in LD; lia]).
  rewrite ER, app_nil_r in D. rewrite EQ, app_nil_r in O. rewrite EL, EH in P. rewrite <- O in P. auto.
Qed.

Lemma total_zero_forall (w : list (worker J)) : Forall gone_or_dead w -> total is_dead w = 0%nat -> Forall (eq WGone) w.
Proof.
  unfold total, list_sum. induction 1 as [|x w X _ IH]; intros Z; [constructor|]. cbn [map fold_right] in Z.
  destruct X as [-> | ->]; cbn [is_dead] in Z; [|discriminate]. constructor; [reflexivity|apply IH; lia].
Qed.
Lemma gone_total (w : list (worker J)) : Forall (eq WGone) w -> total is_gone w = List.length w /\ held w = [].
Proof.
  unfold total, list_sum, held. induction 1 as [|x w <- _ [IH1 IH2]]; [split; reflexivity|].
  cbn [map fold_right flat_map is_gone List.length app]. split; [lia|exact IH2].
Qed.

Lemma shut_down_proof n s0 ls st x : (1 <= n)%nat -> frun src runs passed n (finit n s0) ls st -> fs_pc st = FDone x ->
  Forall gone_or_dead (fs_workers st) /\
  (deaths ls = 0%nat -> Forall (eq WGone) (fs_workers st) /\ fs_queue st = [] /\
     Permutation (obtained (events ls)) (map fst (finished (events ls)))).
Proof.
  intros N X E. destruct (run_inv _ _ _ _ N X) as [W O P U D A T Q G GG DD DN Z]. rewrite E in *. split; [exact DN|].
  intros NO. rewrite NO in DD. pose proof (total_zero_forall _ DN DD) as F. destruct (gone_total _ F) as [TG EH]. rewrite W in TG.
  pose proof (GG ltac:(lia)) as EQ. cbn [closing] in G. rewrite EQ in G, O. cbn [List.length] in G. rewrite app_nil_r in O.
  assert (fs_queue st = []) as EF by (destruct (fs_queue st); [reflexivity|cbn in G; lia]).
  assert (lost ls = []) as EL.
  { destruct (lost ls) as [|j r] eqn:L; [reflexivity|]. exfalso. clear -NO L.
    induction ls as [|l ls IH]; [discriminate|]. destruct l as [l|w o| |w|]; try (apply IH; assumption). discriminate NO. }
  rewrite EL, EH in P. rewrite <- O in P. auto.
Qed.

(** Going on. *)
Lemma idle_or (w : list (worker J)) : (exists i, nth_error w i = Some WIdle) \/ (exists i j, nth_error w i = Some (WJob j)) \/ Forall gone_or_dead w.
Proof.
  induction w as [|x w [(i & E)|[(i & j & E)|F]]].
  - right. right. constructor.
  - left. exists (Datatypes.S i). exact E.
  - right. left. exists (Datatypes.S i), j. exact E.
  - destruct x as [|j| |]; [left; exists 0%nat; reflexivity|right; left; exists 0%nat, j; reflexivity|..];
      right; right; constructor; try exact F; [left|right]; reflexivity.
Qed.
Lemma no_held (w : list (worker J)) : (forall i j, nth_error w i <> Some (WJob j)) -> held w = [].
Proof.
  induction w as [|x w IH]; intros H; [reflexivity|]. unfold held in *. cbn [flat_map]. rewrite IH; [|intros i j; exact (H (Datatypes.S i) j)].
  destruct x as [|j| |]; try reflexivity. destruct (H 0%nat j eq_refl).
Qed.
Lemma all_dead (w : list (worker J)) : Forall gone_or_dead w -> total is_gone w = 0%nat -> Forall (eq WDead) w.
Proof.
  unfold total, list_sum. induction 1 as [|x w X _ IH]; intros Z; [constructor|]. cbn [map fold_right] in Z.
  destruct X as [-> | ->]; cbn [is_gone] in Z; [discriminate|]. constructor; [reflexivity|apply IH; lia].
Qed.

Lemma goes_on_proof n s0 ls st : (1 <= n)%nat -> frun src runs passed n (finit n s0) ls st ->
  (forall s, exists x s', s_get src s x s') ->
  (forall r s, exists x s', s_response src r s x s') ->
  (forall j m s, exists x s', s_error src j m s x s') ->
  (forall j, exists x, runs j x) ->
  (exists x, fs_pc st = FDone x) \/
  (exists l st', (forall w o, l <> LDie w o) /\ fstep src runs passed n st l st') \/
  (fs_pc st = FWait /\ fs_resp st = [] /\ held (fs_workers st) = [] /\
   ((lost ls <> [] /\ queued (fs_queue st) = []) \/ Forall (eq WDead) (fs_workers st))).
Proof.
  intros N X TG TR TE TJ. pose proof (run_inv _ _ _ _ N X) as [W O P U D A T Q G GG DD DN Z].
  destruct st as [s q w r a pc]. cbn [fs_src fs_queue fs_workers fs_resp fs_active fs_pc] in *.
  destruct pc as [| |x|x|x].
  - right. left. destruct (Nat.ltb_spec a n) as [La|La].
    + destruct (TG s) as ([[j|]|e] & s' & E); eexists _, _; (split; [|first [eapply f_job; eassumption|eapply f_nojob; eassumption|eapply f_get_error; eassumption]]); discriminate.
    + eexists _, _. split; [|eapply f_full; lia]. discriminate.
  - cbn [how] in *. destruct r as [|o r].
    2:{ right. left. assert (exists x s', s_deliver src o s x s') as ([[]|e] & s' & E) by (destruct o as [r0|j m]; [apply TR|apply TE]);
        eexists _, _; (split; [|first [eapply f_deliver; eassumption|eapply f_deliver_error; eassumption]]); discriminate. }
    destruct (idle_or w) as [(i & E)|[(i & j & E)|F]].
    + destruct q as [|[j|] q].
      * destruct (List.existsb (fun x => match x with WJob _ => true | _ => false end) w) eqn:EX.
        { apply existsb_exists in EX as (x & IN & Y). destruct x as [|j| |]; try discriminate. apply In_nth_error in IN as (i' & E').
          destruct (TJ j) as (y & RY). right. left. eexists _, _. split; [|eapply f_finish; eassumption]. discriminate. }
        right. right. assert (held w = []) as EH.
        { apply no_held. intros i' j E'. apply nth_error_In in E'. rewrite <- not_true_iff_false in EX. apply EX, existsb_exists. exists (WJob j). auto. }
        split; [reflexivity|]. split; [reflexivity|]. split; [exact EH|]. left. split; [|reflexivity]. intros EL.
        rewrite EH, EL in P. cbn [app] in P. cbn in O. rewrite app_nil_r in O, D. apply Permutation_length in P. rewrite map_length in P.
        rewrite O, P, D, outs_length in A. lia.
      * right. left. eexists _, _. split; [|eapply f_take; eassumption]. discriminate.
      * right. left. eexists _, _. split; [|eapply f_leave; eassumption]. discriminate.
    + destruct (TJ j) as (y & RY). right. left. eexists _, _. split; [|eapply f_finish; eassumption]. discriminate.
    + right. right. split; [reflexivity|]. split; [reflexivity|]. assert (total is_gone w = 0%nat) as E0 by (cbn [closing] in G; pose proof (queued_le q); lia).
      pose proof (all_dead _ F E0) as FD. split; [|right; exact FD].
      apply no_held. intros i j E. pose proof (nth_Forall _ _ _ _ FD E). discriminate.
  - right. left. eexists _, _. split; [|eapply f_signals]. discriminate.
  - right. left. cbn [closing] in G. destruct (idle_or w) as [(i & E)|[(i & j & E)|F]].
    + destruct q as [|[j|] q].
      * exfalso. cbn in G. pose proof (total_set is_gone w i WIdle WGone E) as Y. cbn [is_gone] in Y.
        pose proof (total_le (set_nth w i WGone)) as L. rewrite set_nth_length in L. lia.
      * eexists _, _. split; [|eapply f_take; eassumption]. discriminate.
      * eexists _, _. split; [|eapply f_leave; eassumption]. discriminate.
    + destruct (TJ j) as (y & RY). eexists _, _. split; [|eapply f_finish; eassumption]. discriminate.
    + eexists _, _. split; [|eapply f_joined; exact F]. discriminate.
  - left. exists x. reflexivity.
Qed.

Lemma hangs_proof n s q w a l st' : held w = [] -> q = [] \/ Forall (eq WDead) w ->
  fstep src runs passed n (mkFS s q w [] a FWait) l st' ->
  (exists i, l = LDie i None) /\ exists w', st' = mkFS s q w' [] a FWait /\ held w' = [] /\ (q = [] \/ Forall (eq WDead) w').
Proof.
  intros H0 K X.
  assert (forall i j, nth_error w i = Some (WJob j) -> False) as NJ.
  { intros i j E. pose proof (held_drop w WDead I i j E) as Y. rewrite H0 in Y. apply Permutation_sym, Permutation_nil in Y. discriminate. }
  inversion X; subst; try solve [exfalso; eapply NJ; eassumption].
  all: destruct K as [K|K]; [try discriminate K|match goal with E : nth_error _ _ = Some _ |- _ => pose proof (nth_Forall _ _ _ _ K E); discriminate end].
  split; [eexists; reflexivity|]. eexists. split; [reflexivity|]. split; [rewrite held_same by (try exact I; assumption); exact H0|left; exact K].
Qed.

Lemma bounded_proof n s0 ls st : (1 <= n)%nat -> frun src runs passed n (finit n s0) ls st ->
  (List.length ls <= 5 * List.length (obtained (events ls)) + n + 3)%nat.
Proof.
  intros N X. destruct (run_inv _ _ _ _ N X) as [W O P U D A T Q G GG DD DN Z].
  pose proof (Permutation_length P) as L. pose proof (f_equal (@List.length _) O) as LO. pose proof (f_equal (@List.length _) D) as LD.
  rewrite !app_length, map_length in L. rewrite app_length in LO, LD. rewrite outs_length in LD.
  pose proof (total_le (fs_workers st)). assert (later (fs_pc st) <= 3)%nat by (destruct (fs_pc st); cbn; lia). lia.
Qed.

(** The job source's view. *)
Lemma history_inv n s0 ls st : (1 <= n)%nat -> frun src runs passed n (finit n s0) ls st ->
  match how (fs_pc st) with
  | Some (Raised e) => exists e0, e = (if passed e0 then e0 else JobSourceError) /\ history_raises src runs n s0 [] (calls (events ls)) (fs_src st) e0
  | _ => exists l pend, history src runs n s0 [] (calls (events ls)) (fs_src st) l /\ (List.length l <= n)%nat /\
      fs_resp st = outs pend /\ pend_ok runs pend /\
      Permutation l (queued (fs_queue st) ++ held (fs_workers st) ++ lost ls ++ map fst pend)
  end.
Proof.
  intros N X. remember (finit n s0) as st0 eqn:E. induction X as [st0|st0 ls st1 l st2 X0 IH Y].
  - subst st0. cbn [finit fs_src fs_queue fs_workers fs_resp fs_pc how events flat_map calls lost]. exists [], [].
    rewrite held_repeat. split; [constructor|]. split; [cbn; lia|]. split; [reflexivity|]. split; [constructor|]. apply Permutation_refl.
  - specialize (IH E). subst st0. pose proof (run_inv _ _ _ _ N X0) as V. destruct V as [W O P U D A T Q G GG DD DN Z].
    destruct Y; cbn [fs_src fs_queue fs_workers fs_resp fs_active fs_pc how] in *;
    rewrite ?events_snoc, ?lost_snoc, ?calls_snoc, ?app_nil_r, ?queued_snoc_job, ?queued_job, ?queued_signal in *.
    (* the number of jobs in flight *)
    all: pose proof (Permutation_length P) as LP; pose proof (f_equal (@List.length _) O) as LO; pose proof (f_equal (@List.length _) D) as LD;
      rewrite !app_length, map_length in LP; rewrite app_length in LO, LD; rewrite outs_length in LD.
    + destruct IH as (l & pend & Hl & Ln & Hr & Hp & Pl). pose proof (Permutation_length Pl) as PL. rewrite !app_length, map_length in PL.
      rewrite Hr, outs_length in LD. exists (j :: l), pend. split; [econstructor; [exact Hl|lia|assumption]|]. split; [cbn; lia|]. split; [exact Hr|]. split; [exact Hp|].
      rewrite Pl, <- app_assoc. cbn [app]. apply Permutation_middle.
    + destruct IH as (l & pend & Hl & Ln & Hr & Hp & Pl). pose proof (Permutation_length Pl) as PL. rewrite !app_length, map_length in PL.
      rewrite Hr, outs_length in LD. destruct (Nat.eqb_spec a 0); cbn [how]; exists l, pend;
        (split; [econstructor; [exact Hl|lia|assumption]|]); auto.
    + destruct IH as (l & pend & Hl & Ln & Hr & Hp & Pl). pose proof (Permutation_length Pl) as PL. rewrite !app_length, map_length in PL.
      rewrite Hr, outs_length in LD. exists e. split; [reflexivity|]. econstructor 1; [exact Hl|lia|eassumption|reflexivity].
    + destruct (Nat.eqb_spec a 0); cbn [how]; exact IH.
    + destruct IH as (l & pend & Hl & Ln & Hr & Hp & Pl). destruct pend as [|[j x] pend]; [discriminate|]. cbn in Hr. injection Hr as -> ->.
      inversion Hp as [|? ? Hx Hp']; subst. cbn [map fst snd] in *.
      assert (In j l) as IN by (rewrite Pl; apply in_or_app; right; apply in_or_app; right; apply in_or_app; right; left; reflexivity).
      apply in_split in IN as (l1 & l2 & ->). exists (l1 ++ l2), pend.
      split; [destruct x as [r0|m]; econstructor; eassumption|]. rewrite app_length in Ln |- *. cbn [List.length] in Ln. split; [lia|]. split; [reflexivity|]. split; [exact Hp'|].
      pose proof (Permutation_app_inv l1 l2 (queued q ++ held w ++ lost ls) (map fst pend) j) as Y0. rewrite <- !app_assoc in Y0. exact (Y0 Pl).
    + destruct IH as (l & pend & Hl & Ln & Hr & Hp & Pl). destruct pend as [|[j x] pend]; [discriminate|]. cbn in Hr. injection Hr as -> ->.
      inversion Hp as [|? ? Hx Hp']; subst. cbn [map fst snd] in *.
      assert (In j l) as IN by (rewrite Pl; apply in_or_app; right; apply in_or_app; right; apply in_or_app; right; left; reflexivity).
      apply in_split in IN as (l1 & l2 & ->). exists e. split; [reflexivity|].
      destruct x as [r0|m]; [eapply hr_response|eapply hr_error]; try eassumption; reflexivity.
    + destruct (how pc) as [[|e]|]; [| exact IH |];
      (destruct IH as (l & pend & Hl & Ln & Hr & Hp & Pl); exists l, pend; split; [exact Hl|]; split; [exact Ln|]; split; [exact Hr|]; split; [exact Hp|];
       rewrite Pl, (held_put w i j) by assumption; cbn [app]; apply Permutation_middle).
    + destruct (how pc) as [[|e]|]; [| exact IH |];
      (destruct IH as (l & pend & Hl & Ln & Hr & Hp & Pl); exists l, (pend ++ [(j, x)]); split; [exact Hl|]; split; [exact Ln|];
       split; [rewrite outs_snoc, Hr; reflexivity|]; split; [apply Forall_app; split; [exact Hp|constructor; [assumption|constructor]]|];
       rewrite Pl, <- (held_drop w WIdle I i j) by assumption; rewrite map_app; cbn [map fst app];
       rewrite <- Permutation_middle; rewrite !app_assoc; apply Permutation_cons_append).
    + rewrite (held_same w WDead I) by assumption. exact IH.
    + destruct (how pc) as [[|e]|]; [| exact IH |];
      (destruct IH as (l & pend & Hl & Ln & Hr & Hp & Pl); exists l, pend; split; [exact Hl|]; split; [exact Ln|]; split; [exact Hr|]; split; [exact Hp|];
       rewrite Pl, <- (held_drop w WDead I i j) by assumption; apply Permutation_app_head; rewrite <- app_assoc; cbn [app];
       rewrite !app_assoc; apply Permutation_middle).
    + rewrite queued_app, queued_finish, app_nil_r. exact IH.
    + rewrite (held_same w WGone I) by assumption. exact IH.
    + exact IH.
Qed.
End Proofs.
