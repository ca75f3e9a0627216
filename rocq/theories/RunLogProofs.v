From Coq Require Import Permutation.
From Verif Require Import Base Bytes PyStr Dict CommonModel SchedModel GtpModel GameplayModel GameplaySpec RingModel TournModel TournSpec
  ReportModel ReportSpec ReportWholeProofs RunLogModel RunLogSpec.
Open Scope Z_scope.

(** ** Texts *)
Lemma join_flat (i : bytes) l : join (str " ") (i :: l) = i ++ flat_map (fun j => str " " ++ j) l.
Proof.
  revert i; induction l as [|j l IH]; intros i; [cbn; rewrite app_nil_r; reflexivity|].
  change (join (str " ") (i :: j :: l)) with (i ++ str " " ++ join (str " ") (j :: l)). rewrite IH. cbn [flat_map]. rewrite <- !app_assoc. reflexivity.
Qed.

Lemma concat_flat (l : list bytes) : List.concat (flat_map (fun j => [str " "; j]) l) = flat_map (fun j => str " " ++ j) l.
Proof. induction l as [|j l IH]; [reflexivity|]. cbn [flat_map app List.concat]. rewrite IH. reflexivity. Qed.

Lemma line_says e : line_of e = List.concat (says e).
Proof.
  destruct e as [now [n|]|n|id b w|id|t|t|id m|r|t|[|i l]]; cbn [line_of says List.concat]; rewrite ?app_nil_r; try reflexivity.
  f_equal. rewrite join_flat, concat_flat. reflexivity.
Qed.

Lemma log_says l : log_text l = file_of l.
Proof.
  unfold log_text, file_of. induction l as [|e l IH]; [reflexivity|]. cbn [map List.concat flat_map]. rewrite IH, line_says. reflexivity.
Qed.

(** ** open games *)
Lemma open_app l es id : open_in (l ++ es) id <-> open_in es id \/ open_in l id /\ forall e, In e es -> ~ ends id e.
Proof.
  split.
  - intros (l1 & b & w & l2 & E & N).
    assert (X : (exists k, l1 = l ++ k /\ es = k ++ LStart id b w :: l2) \/ (exists k, l = l1 ++ LStart id b w :: k /\ l2 = k ++ es)).
    { revert l1 E. induction l as [|x l IH]; intros l1 E; [left; exists l1; split; [reflexivity|exact E]|].
      destruct l1 as [|y l1]; cbn [app] in E; injection E as E1 E2; subst.
      - right. exists l. split; reflexivity.
      - destruct (IH l1 E2) as [(k & -> & ->)|(k & -> & ->)]; [left; exists k|right; exists k]; split; reflexivity. }
    destruct X as [(k & -> & ->)|(k & -> & ->)].
    + left. exists k, b, w, l2. split; [reflexivity|exact N].
    + right. split.
      * exists l1, b, w, k. split; [reflexivity|]. intros e I. apply N. apply in_or_app. left. exact I.
      * intros e I. apply N. apply in_or_app. right. exact I.
  - intros [(l1 & b & w & l2 & -> & N)|[(l1 & b & w & l2 & -> & N) M]].
    + exists (l ++ l1), b, w, l2. split; [rewrite app_assoc; reflexivity|exact N].
    + exists l1, b, w, (l2 ++ es). split; [rewrite <- app_assoc; reflexivity|]. intros e I. apply in_app_or in I. destruct I; auto.
Qed.
Lemma open_nil id : ~ open_in [] id.
Proof. intros (l1 & b & w & l2 & E & _). destruct l1; discriminate. Qed.
Lemma open_start id b w id' : open_in [LStart id b w] id' <-> id' = id.
Proof.
  split.
  - intros (l1 & b' & w' & l2 & E & _). destruct l1 as [|x [|y l1]]; [injection E as -> _ _ _; reflexivity|discriminate|discriminate].
  - intros ->. exists [], b, w, []. split; [reflexivity|intros ? []].
Qed.
(** Entries that start and end no game. *)
Definition plain (e : entry) : Prop :=
  match e with LStart _ _ _ | LResponse _ | LVoid _ _ => False | _ => True end.
Lemma plain_closed es id : Forall plain es -> ~ open_in es id.
Proof. intros F (l1 & b & w & l2 & -> & _). apply Forall_app in F. destruct F as [_ F]. inversion F as [|? ? X]. exact X. Qed.
Lemma plain_end es : Forall plain es -> forall e id, In e es -> ~ ends id e.
Proof. intros F e id I. rewrite Forall_forall in F. pose proof (F e I) as X. intros [->|(m & ->)]; exact X. Qed.
Lemma open_plain l es id : Forall plain es -> open_in (l ++ es) id <-> open_in l id.
Proof.
  intros F. rewrite open_app. split.
  - intros [X|[X _]]; [destruct (plain_closed es id F X)|exact X].
  - intros X. right. split; [exact X|]. intros e I. exact (plain_end es F e id I).
Qed.

(** ** Halting *)
Definition halt_free (l : list entry) : Prop := forall r, ~ In (LHalt r) l.
Definition start_free (l : list entry) : Prop := forall id b w, ~ In (LStart id b w) l.
Lemma halts_free l es : halt_free l -> halts_once es -> halts_once (l ++ es).
Proof.
  intros F H l1 r l2 E.
  assert (X : exists k, l1 = l ++ k).
  { revert l1 E. induction l as [|x l IH]; intros l1 E; [exists l1; reflexivity|].
    destruct l1 as [|y l1]; cbn [app] in E; injection E as E1 E2.
    - exfalso. apply (F r). left. exact E1.
    - destruct (IH (fun r I => F r (or_intror I)) l1 E2) as (k & ->). exists k. rewrite E1. reflexivity. }
  destruct X as (k & ->). rewrite <- app_assoc in E. apply app_inv_head in E. exact (H k r l2 E).
Qed.
Lemma halts_more l es : halts_once l -> halt_free es -> start_free es -> halts_once (l ++ es).
Proof.
  intros H F S l1 r l2 E.
  assert (X : exists k, l = l1 ++ LHalt r :: k /\ l2 = k ++ es).
  { revert l1 E. clear H. induction l as [|x l IH]; intros l1 E.
    - exfalso. apply (F r). change ([] ++ es) with es in E. rewrite E. apply in_or_app. right. left. reflexivity.
    - destruct l1 as [|y l1]; cbn [app] in E; injection E as E1 E2; subst.
      + exists l. split; reflexivity.
      + destruct (IH l1 E2) as (k & -> & ->). exists k. split; reflexivity. }
  destruct X as (k & -> & ->). destruct (H l1 r k eq_refl) as [A B]. split.
  - intros r' I. apply in_app_or in I. destruct I as [I|I]; [exact (A r' I)|exact (F r' I)].
  - intros id b w I. apply in_app_or in I. destruct I as [I|I]; [exact (B id b w I)|exact (S id b w I)].
Qed.
Lemma halts_none l : halt_free l -> halts_once l.
Proof. intros F l1 r l2 ->. exfalso. apply (F r). apply in_or_app. right. left. reflexivity. Qed.

Lemma starts_app a b : starts (a ++ b) = starts a + starts b.
Proof. unfold starts. rewrite filter_app, app_length. lia. Qed.
Lemma voids_app a b : voids (a ++ b) = voids a + voids b.
Proof. unfold voids. rewrite filter_app, app_length. lia. Qed.
Lemma warnings_app a b : warnings_of (a ++ b) = warnings_of a ++ warnings_of b.
Proof. unfold warnings_of. apply flat_map_app. Qed.

(** ** Sorted games *)
Lemma sort_keys_proof {A} (l : list (bytes * A)) : by_key l (sort_keys l).
Proof. exact (sort_proof l). Qed.

Lemma sorted_ids {A} (d : dict A) : NoDup (map fst d) ->
  in_order (map fst (sort_keys d)) /\ (forall id, In id (map fst (sort_keys d)) <-> dmem id d = true) /\ List.length (map fst (sort_keys d)) = List.length d.
Proof.
  intros N. destruct (sort_keys_proof d) as [P O]. split; [split|split].
  - refine (Permutation_NoDup _ N). apply Permutation_map. exact P.
  - intros i j a b L I J. rewrite nth_error_map in I, J.
    destruct (nth_error (sort_keys d) i) as [x|] eqn:EX; [|discriminate]. destruct (nth_error (sort_keys d) j) as [y|] eqn:EY; [|discriminate].
    injection I as <-. injection J as <-. exact (O i j x y L EX EY).
  - intros id. assert (In id (map fst (sort_keys d)) <-> In id (map fst d)) as ->.
    { split; apply Permutation_in; apply Permutation_map; [apply Permutation_sym|]; exact P. }
    unfold dmem. pose proof (dget_None id d) as Q. destruct (dget id d) as [v|] eqn:E.
    + split; [reflexivity|]. intros _. apply dget_In in E. apply in_map_iff. exists (id, v). split; [reflexivity|exact E].
    + split; [|discriminate]. intros I. destruct (proj1 Q eq_refl I).
  - rewrite map_length. apply Permutation_length. apply Permutation_sym. exact P.
Qed.
Lemma ddel_keys {A} k (d : dict A) x : In x (map fst (ddel k d)) -> In x (map fst d).
Proof.
  induction d as [|[a v] d IH]; [exact (fun H => H)|]. cbn [ddel]. destruct (bytes_eqb k a); cbn [map fst In]; intros H.
  - right. apply IH || exact H. exact H.
  - destruct H as [H|H]; [left; exact H|right; exact (IH H)].
Qed.
Lemma ddel_NoDup {A} k (d : dict A) : NoDup (map fst d) -> NoDup (map fst (ddel k d)).
Proof.
  induction d as [|[a v] d IH]; [exact (fun H => H)|]. intros N. inversion N as [|? ? N1 N2]; subst. cbn [ddel]. destruct (bytes_eqb k a).
  - exact (IH N2) || exact N2.
  - cbn [map fst]. constructor; [|exact (IH N2)]. intros I. apply N1. exact (ddel_keys _ _ _ I).
Qed.
Lemma dmem_dset {A} k k2 (v : A) d : dmem k2 (dset k v d) = true <-> k2 = k \/ dmem k2 d = true.
Proof.
  unfold dmem. rewrite dget_dset. destruct (bytes_eqb_spec k2 k) as [->|N].
  - split; [left; reflexivity|reflexivity].
  - split; [right; assumption|]. intros [->|H]; [congruence|exact H].
Qed.
Lemma dmem_ddel {A} k k2 (d : dict A) : dmem k2 (ddel k d) = true <-> k2 <> k /\ dmem k2 d = true.
Proof.
  unfold dmem. rewrite dget_ddel. destruct (bytes_eqb_spec k2 k) as [->|N].
  - split; [discriminate|]. intros [N _]. congruence.
  - split; [intros H; split; assumption|tauto].
Qed.
