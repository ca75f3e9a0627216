(** What the ringmaster does with any competition at all (C29). *)
From Coq Require Import Permutation.
From Verif Require Import Base Bytes Dict JobModel JobSpec JobProofs RingModel RingSpec RingProofs.

Section Any.
Context {CF C ST J R : Type}.
Variable comp : competition CF C ST J R.
Variable job_id : J -> bytes.
Variable response_id : R -> bytes.
Variable answers : J -> R -> Prop.
Notation src := (ring_source comp job_id response_id).
Notation runs' := (runs job_id response_id answers).

Record apart (g : ring C J) (l : list J) : Prop := mkApart {
  ap_prog : keyed job_id (r_prog g);
  ap_replay : keyed job_id (r_replay g);
  ap_keys : NoDup (map fst (r_prog g) ++ map fst (r_replay g));
  ap_flight : Permutation (map snd (r_prog g)) l
}.

Lemma apart_display b g l : apart g l -> apart (update_display comp b g) l.
Proof. intros [A B D E]. destruct b; constructor; assumption. Qed.

Lemma start_apart cf max disp d g : start comp cf max disp d = Ok g -> apart g [].
Proof.
  unfold start. intros H.
  assert (forall c v m, apart (mkRing c v [] [] [] false m) []) as E by (intros; constructor; constructor).
  destruct (d_status d) as [[v st|]|]; [|discriminate H|].
  - destruct (c_load comp cf st); [|discriminate H]. injection H as <-. apply apart_display, E.
  - destruct (c_clean comp cf); [|discriminate H]. injection H as <-. apply apart_display, E.
Qed.

Lemma nodup_app {A} (a b : list A) : NoDup (a ++ b) -> NoDup a /\ NoDup b /\ forall x, In x a -> ~ In x b.
Proof. intros H. apply (NoDup_parts a b []). rewrite app_nil_r. exact H. Qed.

Lemma app_nodup {A} (a b : list A) : NoDup a -> NoDup b -> (forall x, In x a -> ~ In x b) -> NoDup (a ++ b).
Proof.
  intros Na Nb D. induction Na as [|x a N Na IH]; [exact Nb|]. cbn [app]. constructor.
  - rewrite in_app_iff. intros [I|I]; [contradiction|]. exact (D x (or_introl eq_refl) I).
  - apply IH. intros y I. apply D. right. exact I.
Qed.

Lemma keyed_perm d d' : Permutation d d' -> keyed job_id d -> keyed job_id d'.
Proof. unfold keyed. intros P. rewrite !Forall_forall. intros H x I. apply H. eapply Permutation_in; [apply Permutation_sym; exact P|exact I]. Qed.

Lemma dset_new_all k j (d : dict J) : ~ In k (map fst d) -> k = job_id j -> keyed job_id d ->
  keyed job_id (dset k j d) /\ Permutation (map fst (dset k j d)) (k :: map fst d) /\ Permutation (map snd (dset k j d)) (j :: map snd d).
Proof.
  intros N E K. assert (Permutation (dset k j d) ((k, j) :: d)) as P by (rewrite (dset_new k j d N); apply Permutation_sym, Permutation_cons_append). split; [|split].
  - eapply keyed_perm; [apply Permutation_sym; exact P|]. constructor; [exact E|exact K].
  - apply (Permutation_map fst) in P. exact P.
  - apply (Permutation_map snd) in P. exact P.
Qed.

Lemma ddel_all k j (d : dict J) : NoDup (map fst d) -> dget k d = Some j ->
  Permutation (map fst d) (k :: map fst (ddel k d)) /\ Permutation (map snd d) (j :: map snd (ddel k d)).
Proof. intros N G. pose proof (ddel_perm k j d N G) as P. split; [apply (Permutation_map fst) in P|apply (Permutation_map snd) in P]; exact P. Qed.

Lemma get_in_flight g a j b : apart g (a ++ j :: b) -> dget (job_id j) (r_prog g) = Some j.
Proof.
  intros [A B D E]. destruct (nodup_app _ _ D) as (ND & _).
  assert (In j (map snd (r_prog g))) as I by (eapply Permutation_in; [apply Permutation_sym; exact E|apply in_or_app; right; left; reflexivity]).
  apply in_map_iff in I. destruct I as ((k & j') & Ej & I). cbn [snd] in Ej. subst j'.
  pose proof (proj1 (Forall_forall _ _) A _ I) as K. cbn [fst snd] in K. subst k. apply In_dget; assumption.
Qed.

Lemma take_out g a j b : apart g (a ++ j :: b) ->
  NoDup (map fst (ddel (job_id j) (r_prog g)) ++ map fst (r_replay g)) /\ ~ In (job_id j) (map fst (ddel (job_id j) (r_prog g)) ++ map fst (r_replay g)) /\
  Permutation (map snd (ddel (job_id j) (r_prog g))) (a ++ b).
Proof.
  intros AP. pose proof (get_in_flight _ _ _ _ AP) as G. destruct AP as [A B D E]. destruct (nodup_app _ _ D) as (ND & _).
  destruct (ddel_all _ _ _ ND G) as (Pf & Ps).
  assert (NoDup (job_id j :: (map fst (ddel (job_id j) (r_prog g)) ++ map fst (r_replay g)))) as N.
  { eapply Permutation_NoDup; [|exact D]. change (job_id j :: (map fst (ddel (job_id j) (r_prog g)) ++ map fst (r_replay g))) with ((job_id j :: map fst (ddel (job_id j) (r_prog g))) ++ map fst (r_replay g)).
    apply Permutation_app_tail. exact Pf. }
  inversion N as [|? ? N1 N2]; subst. split; [exact N2|]. split; [exact N1|].
  apply (Permutation_cons_inv (a := j)). rewrite <- Ps. rewrite E. apply Permutation_sym, Permutation_middle.
Qed.

Lemma get_apart i g l g' x : apart g l -> get_job comp job_id i g = (g', Ok x) -> apart g' (match x with Some j => [j] | None => [] end ++ l).
Proof.
  intros AP. unfold get_job. destruct (get_job_ comp job_id i g) as [g1 [y|e]] eqn:E; intros H; [|discriminate H]. injection H as <- ->.
  apply apart_display. unfold get_job_ in E. pose proof AP as [A B D F].
  assert (apart (halt g) l) as Hl by (constructor; assumption).
  destruct (r_stopping g); [injection E as <- <-; exact AP|]. destruct (gi_terminal i); [injection E as <- <-; exact Hl|].
  destruct (gi_file i); [injection E as <- <-; exact Hl|]. destruct (match r_max g with Some m => m =? 0 | None => false end); [injection E as <- <-; exact Hl|].
  cbn [r_replay r_prog r_comp] in E. destruct (r_replay g) as [|kv rest] eqn:Rp.
  - destruct (c_get comp (r_comp g)) as [c [[j|]|e]]; [|injection E as <- <-; constructor; cbn [with_comp r_prog r_replay app]; rewrite ?Rp; assumption|discriminate E].
    cbn [with_comp r_prog r_replay] in E.
    destruct (dmem (job_id j) (r_prog g)) eqn:M; [discriminate E|]. injection E as <- <-.
    assert (~ In (job_id j) (map fst (r_prog g))) as N by (apply dget_None; unfold dmem in M; destruct (dget (job_id j) (r_prog g)); [discriminate M|reflexivity]).
    destruct (dset_new_all (job_id j) j (r_prog g) N eq_refl A) as (K & Pf & Ps).
    constructor; cbn [with_games r_prog r_replay]; rewrite ?Rp.
    + exact K.
    + constructor.
    + cbn [map app] in *. rewrite app_nil_r in *. eapply Permutation_NoDup; [apply Permutation_sym; exact Pf|]. constructor; assumption.
    + rewrite Ps. cbn [app]. constructor. exact F.
  - destruct (nth (gi_which i) (kv :: rest) kv) as [k j] eqn:Nt. injection E as <- <-. cbn [with_games r_prog r_replay].
    assert (In (k, j) (kv :: rest)) as I by (rewrite <- Nt; eapply nth_In_cons; reflexivity).
    destruct (nodup_app _ _ D) as (NP & NR & DJ).
    pose proof (proj1 (Forall_forall _ _) B _ I) as Ek. cbn [fst snd] in Ek. subst k.
    pose proof (In_dget _ _ _ NR I) as G. destruct (ddel_all _ _ _ NR G) as (Pf & _).
    assert (In (job_id j) (map fst (kv :: rest))) as Ik by (apply in_map_iff; exists (job_id j, j); auto).
    assert (~ In (job_id j) (map fst (r_prog g))) as N by (intros Ip; exact (DJ _ Ip Ik)).
    destruct (dset_new_all (job_id j) j (r_prog g) N eq_refl A) as (K & Pf2 & Ps2).
    constructor; cbn [with_games r_prog r_replay].
    + exact K.
    + exact (keyed_ddel job_id (job_id j) (kv :: rest) B).
    + apply app_nodup.
      * eapply Permutation_NoDup; [apply Permutation_sym; exact Pf2|]. constructor; assumption.
      * pose proof (Permutation_NoDup Pf NR) as N2. inversion N2; assumption.
      * intros y Iy. apply (Permutation_in _ Pf2) in Iy. pose proof (Permutation_NoDup Pf NR) as N2. inversion N2 as [|? ? N3 N4]; subst.
        destruct Iy as [<-|Iy]; [exact N3|]. intros I2. apply (DJ y Iy). eapply Permutation_in; [apply Permutation_sym; exact Pf|right; exact I2].
    + rewrite Ps2. cbn [app]. constructor. exact F.
Qed.

Lemma write_no_change fail (g g' : ring C J) (d : disk ST) ds x : (let (ds, x) := write_status comp fail g d in (g, ds, x)) = (g', ds, x) -> g' = g.
Proof. destruct (write_status comp fail g d). intros H. congruence. Qed.

Lemma response_apart f r g d g' ds a j b : apart g (a ++ j :: b) -> response_id r = job_id j ->
  process_response comp response_id f r g d = (g', ds, Ok tt) -> apart g' (a ++ b).
Proof.
  intros AP E H. unfold process_response in H. destruct (c_result comp r (r_comp g)) as [c [u|e]]; [|discriminate H].
  cbn [with_comp r_prog r_replay] in H. destruct (dmem (response_id r) (r_prog g)); [|discriminate H].
  apply write_no_change in H. subst g'. rewrite E. destruct (take_out _ _ _ _ AP) as (N & _ & P). destruct AP as [A B D F].
  constructor; cbn [with_games r_prog r_replay]; [apply keyed_ddel; exact A|exact B|exact N|exact P].
Qed.

Lemma error_apart f g d g' ds a j b : apart g (a ++ j :: b) ->
  process_error_response comp job_id f j g d = (g', ds, Ok tt) -> apart g' (a ++ b).
Proof.
  intros AP H. unfold process_error_response in H. cbn [r_comp r_errors r_prog] in H.
  set (prev := match dget (job_id j) (r_errors g) with Some n => n | None => 0 end) in H.
  destruct (c_error comp j prev (r_comp g)) as [c [[stop retry]|e]]; [|discriminate H]. cbn [with_comp r_prog r_replay] in H.
  rewrite (get_in_flight _ _ _ _ AP) in H. destruct (take_out _ _ _ _ AP) as (N & NI & P). destruct AP as [A B D F].
  cbn [r_comp r_void r_prog r_replay r_errors r_stopping r_max] in H.
  match type of H with context [write_status comp f ?g3 d] => set (g4 := g3) in H; assert (apart g4 (a ++ b)) as AP4 end.
  { unfold g4. destruct (retry && negb stop); constructor; cbn [r_prog r_replay]; try (apply keyed_ddel; exact A); try exact B; try exact N; try exact P.
    - destruct (dset_new_all (job_id j) j (r_replay g)) as (K & _); [rewrite in_app_iff in NI; tauto|reflexivity|exact B|exact K].
    - destruct (dset_new_all (job_id j) j (r_replay g)) as (_ & Pf & _); [rewrite in_app_iff in NI; tauto|reflexivity|exact B|].
      eapply Permutation_NoDup; [apply Permutation_app_head, Permutation_sym; exact Pf|]. eapply Permutation_NoDup; [apply Permutation_middle|].
      constructor; assumption. }
  clearbody g4. destruct (write_status comp f g4 d) as [ds' [u|e]]; [|discriminate H]. injection H as <- _.
  destruct (stop && negb (r_stopping g4)); [|exact AP4]. destruct AP4 as [A4 B4 D4 F4]. constructor; assumption.
Qed.

Lemma history_apart n s l0 cs s' l : history src runs' n s l0 cs s' l -> apart (fst s) l0 -> apart (fst s') l.
Proof.
  induction 1 as [s l|s l cs s1 l1 j s2 H IH Lt G|s l cs s1 l1 s2 H IH Lt G|s l cs s1 a j b r s2 H IH Ru D|s l cs s1 a j b m s2 H IH Ru D]; intros AP.
  - exact AP.
  - destruct G as (i & G & _). exact (get_apart _ _ _ _ _ (IH AP) G).
  - destruct G as (i & G & _). exact (get_apart _ _ _ _ _ (IH AP) G).
  - destruct D as (f & ds & G & _). destruct Ru as (_ & E). exact (response_apart _ _ _ _ _ _ _ _ _ (IH AP) E G).
  - destruct D as (f & ds & G & _). exact (error_apart _ _ _ _ _ _ _ _ (IH AP) G).
Qed.

Lemma no_game_twice_proof cf max disp d g n cs s' l : start comp cf max disp d = Ok g ->
  history src runs' n (g, d) [] cs s' l -> NoDup (map job_id l).
Proof.
  intros St H. destruct (history_apart _ _ _ _ _ _ H (start_apart _ _ _ _ _ St)) as [A _ D F].
  destruct (nodup_app _ _ D) as (N & _). rewrite (keyed_fst _ _ A) in N. eapply Permutation_NoDup; [apply Permutation_map; exact F|exact N].
Qed.
End Any.

(** ** The error counts *)
Section Counts.
Context {CF C ST J R : Type}.
Variable comp : competition CF C ST J R.
Variable job_id : J -> bytes.
Variable response_id : R -> bytes.
Variable answers : J -> R -> Prop.
Notation rcomp := (errors_noted job_id comp).
Notation src := (ring_source rcomp job_id response_id).
Notation runs' := (runs job_id response_id answers).

Definition counted (g : ring (C * list noted) J) : Prop :=
  (forall id, match dget id (r_errors g) with Some n => n | None => 0 end = retries id (snd (r_comp g))) /\
  forall before x rest, snd (r_comp g) = before ++ x :: rest -> no_count x = retries (no_id x) before.

Lemma retries_nonneg id l : 0 <= retries id l.
Proof.
  unfold retries. rewrite <- fold_left_rev_right. induction (rev l) as [|x r IH]; cbn [fold_right]; [lia|].
  unfold retry_step at 1. destruct (bytes_eqb _ _); [|exact IH]. destruct (no_retried x); lia.
Qed.
Lemma retries_snoc id l x : retries id (l ++ [x]) = retry_step id (retries id l) x.
Proof. unfold retries. rewrite fold_left_app. reflexivity. Qed.

Lemma counted_snoc (l : list noted) x : (forall before y rest, l = before ++ y :: rest -> no_count y = retries (no_id y) before) ->
  no_count x = retries (no_id x) l ->
  forall before y rest, l ++ [x] = before ++ y :: rest -> no_count y = retries (no_id y) before.
Proof.
  intros Old New before y rest E. destruct rest as [|z0 r0] using rev_ind; [|clear IHr0].
  - apply app_inj_tail in E. destruct E as [-> ->]. exact New.
  - change (before ++ y :: r0 ++ [z0]) with (before ++ (y :: r0) ++ [z0]) in E. rewrite app_assoc in E. apply app_inj_tail in E. destruct E as [E _].
    exact (Old before y r0 E).
Qed.

Lemma counted_same (g g' : ring (C * list noted) J) : r_errors g' = r_errors g -> snd (r_comp g') = snd (r_comp g) -> counted g -> counted g'.
Proof. intros E F [A B]. split; rewrite ?E, ?F; assumption. Qed.

Lemma display_counted b g : counted g -> counted (update_display rcomp b g).
Proof. intros H. destruct b; [|exact H]. eapply counted_same; [| |exact H]; [reflexivity|]. cbn. destruct (r_comp g); reflexivity. Qed.

Lemma start_counted cf max disp d g : start rcomp cf max disp d = Ok g -> counted g.
Proof.
  unfold start. intros H.
  assert (forall c v m, counted (mkRing (c, []) v [] [] [] false m)) as E.
  { intros. split; [reflexivity|]. intros [|? ?] x rest F; discriminate F. }
  destruct (d_status d) as [[v st|]|]; [|discriminate H|]; cbn [c_load c_clean errors_noted] in H.
  - destruct (c_load comp cf st); [|discriminate H]. injection H as <-. apply display_counted, E.
  - destruct (c_clean comp cf); [|discriminate H]. injection H as <-. apply display_counted, E.
Qed.

Lemma get_counted i g g' x : counted g -> get_job rcomp job_id i g = (g', Ok x) -> counted g'.
Proof.
  intros CT. unfold get_job. destruct (get_job_ rcomp job_id i g) as [g1 [y|e]] eqn:E; intros H; [|discriminate H]. injection H as <- ->.
  apply display_counted. unfold get_job_ in E.
  assert (forall g2, r_errors g2 = r_errors g -> snd (r_comp g2) = snd (r_comp g) -> counted g2) as Same by (intros g2 A B; exact (counted_same g g2 A B CT)).
  destruct (r_stopping g); [injection E as <- <-; exact CT|]. destruct (gi_terminal i); [injection E as <- <-; apply Same; reflexivity|].
  destruct (gi_file i); [injection E as <- <-; apply Same; reflexivity|].
  destruct (match r_max g with Some m => m =? 0 | None => false end); [injection E as <- <-; apply Same; reflexivity|].
  cbn [r_replay r_prog r_comp c_get errors_noted] in E. destruct (r_replay g) as [|kv rest].
  - destruct (c_get comp (fst (r_comp g))) as [c r]. destruct r as [[j|]|e]; [|injection E as <- <-; apply Same; reflexivity|discriminate E].
    cbn [with_comp r_prog r_replay] in E. destruct (dmem (job_id j) (r_prog g)); [discriminate E|]. injection E as <- <-. apply Same; reflexivity.
  - destruct (nth _ _ _) as [k j]. injection E as <- <-. apply Same; reflexivity.
Qed.

Lemma response_counted f r g d g' ds : counted g -> process_response rcomp response_id f r g d = (g', ds, Ok tt) -> counted g'.
Proof.
  intros CT H. unfold process_response in H. cbn [c_result errors_noted] in H. destruct (c_result comp r (fst (r_comp g))) as [c [u|e]]; [|discriminate H].
  cbn [with_comp r_prog r_replay] in H. destruct (dmem (response_id r) (r_prog g)); [|discriminate H].
  apply write_no_change in H. subst g'. eapply counted_same; [| |exact CT]; reflexivity.
Qed.

Lemma error_counted f j g d g' ds : counted g -> process_error_response rcomp job_id f j g d = (g', ds, Ok tt) -> counted g'.
Proof.
  intros [Cn Lg] H. unfold process_error_response in H. cbn [r_comp r_errors r_prog c_error errors_noted] in H.
  set (prev := match dget (job_id j) (r_errors g) with Some n => n | None => 0 end) in H.
  assert (prev = retries (job_id j) (snd (r_comp g))) as Ep by apply Cn.
  pose proof (retries_nonneg (job_id j) (snd (r_comp g))) as Pos.
  destruct (c_error comp j prev (fst (r_comp g))) as [c [[stop retry]|e]]; [|discriminate H]. cbn [with_comp r_prog r_replay] in H.
  destruct (dget (job_id j) (r_prog g)) as [j'|]; [|discriminate H].
  cbn [r_comp r_void r_prog r_replay r_errors r_stopping r_max] in H.
  match type of H with context [write_status rcomp f ?g3 d] => set (g4 := g3) in H; assert (counted g4) as CT4 end.
  { set (nt := mkNoted (job_id j) prev (retry && negb stop)).
    assert (snd (r_comp g4) = snd (r_comp g) ++ [nt]) as Es by (unfold g4; destruct (retry && negb stop) eqn:Er; unfold nt; reflexivity).
    split.
    - intros id. rewrite Es, retries_snoc. unfold retry_step. cbn [no_id no_retried nt]. unfold g4.
      destruct (bytes_eqb_spec id (job_id j)) as [->|NE].
      + destruct (retry && negb stop); cbn [r_errors].
        * rewrite dget_dset_same. lia.
        * destruct (prev =? 0) eqn:E0; [apply Z.eqb_eq in E0; fold prev; exact E0|]. rewrite dget_ddel, bytes_eqb_refl. reflexivity.
      + rewrite <- Cn. destruct (retry && negb stop); cbn [r_errors].
        * rewrite dget_dset_other by exact NE. reflexivity.
        * destruct (prev =? 0); [reflexivity|]. rewrite dget_ddel. destruct (bytes_eqb_spec id (job_id j)); [contradiction|reflexivity].
    - rewrite Es. apply counted_snoc; [exact Lg|]. exact Ep. }
  clearbody g4. destruct (write_status rcomp f g4 d) as [ds' [u|e]]; [|discriminate H]. injection H as <- _.
  destruct (stop && negb (r_stopping g4)); exact CT4.
Qed.

Lemma history_counted n s l0 cs s' l : history src runs' n s l0 cs s' l -> counted (fst s) -> counted (fst s').
Proof.
  induction 1 as [s l|s l cs s1 l1 j s2 H IH Lt G|s l cs s1 l1 s2 H IH Lt G|s l cs s1 a j b r s2 H IH Ru D|s l cs s1 a j b m s2 H IH Ru D]; intros CT.
  - exact CT.
  - destruct G as (i & G & _). exact (get_counted _ _ _ _ (IH CT) G).
  - destruct G as (i & G & _). exact (get_counted _ _ _ _ (IH CT) G).
  - destruct D as (f & ds & G & _). exact (response_counted _ _ _ _ _ _ (IH CT) G).
  - destruct D as (f & ds & G & _). exact (error_counted _ _ _ _ _ _ (IH CT) G).
Qed.

Lemma error_counts_proof cf max disp d g n cs s' l : start rcomp cf max disp d = Ok g -> history src runs' n (g, d) [] cs s' l ->
  forall before x rest, snd (r_comp (fst s')) = before ++ x :: rest -> no_count x = retries (no_id x) before.
Proof. intros St H. exact (proj2 (history_counted _ _ _ _ _ _ H (start_counted _ _ _ _ _ St))). Qed.
End Counts.
