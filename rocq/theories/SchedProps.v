(** Property theorems for gomill/competition_schedulers.py (C22 - C24). *)
From Verif Require Import Base Bytes Dict SchedModel SchedSpec SchedProofs GroupProofs.
From Coq Require Import Permutation Sorting.Sorted.

(** C22.  Every history of issue, fix, rollback, save and restart, with what the caller
    observes (the answer, and the attributes issued and fixed after each call), is one of
    the abstract machine [arun], in which [EvIssue] only answers with a token that is
    neither fixed nor outstanding, and [EvFix] fails, changing nothing, exactly for
    tokens that are not outstanding. *)
Theorem C22_scheduler_refines_token_machine :
  forall es st os, srun sinit es = (st, os) ->
  exists b v, arun (empty_bag, empty_bag) es os (b, v) /\ bag_ok b /\ bag_ok v.
Proof. exact C22_refines_proof. Qed.
Print Assumptions C22_scheduler_refines_token_machine.

(** From any reachable state, calls of issue and fix never hand out a token twice. *)
Theorem C22_never_issued_twice :
  forall es1 es2 st1 os1 st2 os2,
  srun sinit es1 = (st1, os1) -> srun st1 es2 = (st2, os2) -> Forall plain es2 ->
  NoDup (tokens os2).
Proof. exact C22_never_twice_proof. Qed.
Print Assumptions C22_never_issued_twice.

Theorem C22_bad_fix_changes_nothing :
  forall es st os t st' i f,
  srun sinit es = (st, os) -> srun st [EvFix t] = (st', [(AnsError, i, f)]) -> st' = st.
Proof. exact C22_fix_error_proof. Qed.
Print Assumptions C22_bad_fix_changes_nothing.

Example C22_example :
  snd (srun sinit [EvIssue; EvIssue; EvIssue; EvFix 1; EvFix 1; EvRollback; EvIssue; EvIssue; EvIssue])
  = [(AnsToken 0, 1, 0); (AnsToken 1, 2, 0); (AnsToken 2, 3, 0); (AnsDone, 3, 1); (AnsError, 3, 1);
     (AnsDone, 1, 1); (AnsToken 0, 2, 1); (AnsToken 2, 3, 1); (AnsToken 3, 4, 1)].
Proof. reflexivity. Qed.

(** C23.  After a crash, the tokens not fixed at the last save are issued again, smallest
    first and before any new one; [v] is what was fixed at the last save. *)
Theorem C23_recovery_reissues_smallest_unfixed_first :
  forall es n st os st' os',
  srun sinit es = (st, os) ->
  srun st (EvRestart :: repeat EvIssue n) = (st', os') ->
  exists b v,
    arun (empty_bag, empty_bag) es os (b, v) /\
    List.length (tokens os') = n /\
    StronglySorted lt (tokens os') /\
    (forall t, In t (tokens os') -> ~ In t (b_fixed v)) /\
    (forall u t, ~ In u (b_fixed v) -> ~ In u (tokens os') -> In t (tokens os') -> (t < u)%nat).
Proof. exact C23_recovery_proof. Qed.
Print Assumptions C23_recovery_reissues_smallest_unfixed_first.

(** A token fixed before a save is never issued again, through any later history with any
    number of crashes. *)
Theorem C23_saved_fix_is_forever :
  forall es1 t es2 st1 os1 st2 i f o2 st3 os3,
  srun sinit es1 = (st1, os1) ->
  srun st1 [EvFix t; EvSave] = (st2, (AnsDone, i, f) :: o2) ->
  srun st2 es2 = (st3, os3) ->
  ~ In t (tokens os3).
Proof. exact C23_fixed_forever_proof. Qed.
Print Assumptions C23_saved_fix_is_forever.

(** Playing [n] games through after a crash fixes exactly the first tokens. *)
Theorem C23_playing_through_leaves_no_gap :
  forall es st os n s' ts,
  srun sinit es = (st, os) ->
  run_games n (fst (fst (sstep st EvRestart))) = (s', ts) ->
  exists b v, arun (empty_bag, empty_bag) es os (b, v) /\
    let m := (List.length (b_fixed v) + n)%nat in
    Forall (fun x => snd x = Ok tt) ts /\ issued s' = Z.of_nat m /\ fixed s' = Z.of_nat m /\
    ((forall t, In t (b_fixed v) -> (t < m)%nat) ->
     Permutation (map fst ts ++ b_fixed v) (seq 0 m)).
Proof. exact C23_play_through_proof. Qed.
Print Assumptions C23_playing_through_leaves_no_gap.

Example C23_example :
  map fst (snd (run_games 3 (fst (fst (sstep
    (fst (srun sinit [EvIssue; EvIssue; EvIssue; EvFix 1; EvSave; EvFix 0; EvIssue])) EvRestart)))))
  = [0; 2; 3]%nat.
Proof. reflexivity. Qed.

(** C24. *)
Theorem C24_group_scheduler_refines_group_machine :
  forall es st os, Forall distinct_codes es -> grun ginit es = (st, os) ->
  exists gs v, garun ([], []) es os (gs, v) /\
    Forall (fun g => bag_ok (gr_bag g)) gs /\ NoDup (map gr_code gs).
Proof. exact C24_refines_proof. Qed.
Print Assumptions C24_group_scheduler_refines_group_machine.

Theorem C24_limits_never_exceeded :
  forall specs es st os, NoDup (map fst specs) -> Forall no_set_groups es ->
  grun ginit (GSetGroups specs :: GSave :: es) = (st, os) ->
  exists gs v, garun ([], []) (GSetGroups specs :: GSave :: es) os (gs, v) /\
    forall gr l, In gr gs -> gr_limit gr = Some l -> issued_count (gr_bag gr) <= Z.max 0 l.
Proof. exact C24_limits_proof. Qed.
Print Assumptions C24_limits_never_exceeded.

(** [all_fixed] and [nothing_issued_yet].  Note that groups without a limit do not keep
    [all_fixed] from being true. *)
Theorem C24_all_fixed_and_nothing_issued :
  forall es g v os, Forall distinct_codes es -> grun ginit es = ((g, v), os) ->
  exists gs w, garun ([], []) es os (gs, w) /\
    ((all_fixed g = Ok true /\
        (forall gr l, In gr gs -> gr_limit gr = Some l -> l <= fixed_count (gr_bag gr))) \/
     (all_fixed g = Ok false /\
        (exists gr l, In gr gs /\ gr_limit gr = Some l /\ fixed_count (gr_bag gr) < l))) /\
    (nothing_issued_yet g = true <-> forall gr, In gr gs -> issued_count (gr_bag gr) = 0).
Proof. exact C24_all_fixed_proof. Qed.
Print Assumptions C24_all_fixed_and_nothing_issued.

(** The order in which Python's dict is iterated does not show. *)
Theorem C24_iteration_order_irrelevant :
  forall es g v os order, Forall distinct_codes es ->
  grun ginit es = ((g, v), os) -> Permutation order (allocators g) ->
  gissue_in_order g order = gissue g.
Proof. exact C24_iteration_order_proof. Qed.
Print Assumptions C24_iteration_order_irrelevant.

Definition gA : bytes := ["a"%char].
Definition gB : bytes := ["b"%char].

Example C24_example :
  snd (grun ginit [GSetGroups [(gB, Some 2); (gA, Some 1)]; GSave; GIssue; GIssue; GIssue; GIssue;
                   GFix gB 0; GRestart; GIssue; GIssue; GIssue; GIssue])
  = [GDone; GDone; GToken gB 0; GToken gA 0; GToken gB 1; GNoGame;
     GDone; GDone; GToken gB 0; GToken gA 0; GToken gB 1; GNoGame].
Proof. reflexivity. Qed.

(** The documentation of [all_fixed] says it is true if all groups have limits and have
    been fixed; a group without a limit in fact makes it true at once. *)
Theorem C24_all_fixed_needs_limits_refuted :
  ~ (forall es g v os, Forall distinct_codes es -> grun ginit es = ((g, v), os) ->
     all_fixed g = Ok true -> forall code, dget code (limits g) <> Some None).
Proof.
  intros H.
  assert (Forall distinct_codes [GSetGroups [(gA, None)]]) as D.
  { repeat constructor. intros []. }
  exact (H [GSetGroups [(gA, None)]] _ _ _ D eq_refl eq_refl gA eq_refl).
Qed.
Print Assumptions C24_all_fixed_needs_limits_refuted.
