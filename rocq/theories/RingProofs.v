(** Proofs about the ringmaster (C29). *)
From Coq Require Import Permutation.
From Verif Require Import Base Bytes Dict JobModel JobSpec JobProofs RingModel RingSpec.

Section DictPerm.
Context {A : Type}.
Lemma ddel_notin k (d : dict A) : ~ In k (map fst d) -> ddel k d = d.
Proof.
  induction d as [|[k' v] d IH]; cbn [ddel map fst In]; intros H; [reflexivity|].
  destruct (bytes_eqb_spec k k') as [E|E]; [subst; tauto|]. rewrite IH by tauto. reflexivity.
Qed.
Lemma ddel_perm k (v : A) d : NoDup (map fst d) -> dget k d = Some v -> Permutation d ((k, v) :: ddel k d).
Proof.
  induction d as [|[k' v'] d IH]; cbn [dget ddel map fst]; intros ND E; [discriminate|].
  inversion ND as [|? ? N ND']; subst. destruct (bytes_eqb_spec k k') as [X|X].
  - subst k'. injection E as ->. rewrite (ddel_notin k d N). apply Permutation_refl.
  - rewrite perm_swap. constructor. apply IH; assumption.
Qed.
Lemma ddel_In k (d : dict A) x : In x (ddel k d) -> In x d.
Proof.
  induction d as [|[k' v] d IH]; cbn [ddel]; [tauto|]. destruct (bytes_eqb k k'); cbn [In]; tauto.
Qed.
End DictPerm.

Section Ring.
Context {CF C ST J R : Type}.
Variable comp : competition CF C ST J R.
Variable job_id : J -> bytes.
Variable response_id : R -> bytes.
Variable ok_cf : CF -> Prop.
Variable answers : J -> R -> Prop.
Variable inv : C -> list J -> Prop.
Variable saved : ST -> Prop.
Variable records : option ST -> C -> Prop.
Hypothesis SO : sound comp job_id ok_cf answers inv saved records.

Definition keyed (d : dict J) : Prop := Forall (fun kv => fst kv = job_id (snd kv)) d.

Lemma keyed_fst d : keyed d -> map fst d = map job_id (map snd d).
Proof. induction 1 as [|[k j] d E H IH]; cbn [map fst snd] in *; [reflexivity|]. congruence. Qed.
Lemma keyed_ddel k d : keyed d -> keyed (ddel k d).
Proof. unfold keyed. rewrite !Forall_forall. intros H x I. apply H. eapply ddel_In; eauto. Qed.

(** What is on the disk. *)
Definition ondisk (void : Z) (c : C) (d : disk ST) : Prop :=
  match d_status d with
  | None => void = 0 /\ records None c
  | Some (FComplete v st) => v = void /\ saved st /\ records (Some st) c
  | Some FPartial => False
  end.
Definition good_disk (d : disk ST) : Prop :=
  match d_status d with None => True | Some (FComplete _ st) => saved st | Some FPartial => False end.

Definition limit_ok (m0 m : option Z) (n : nat) : Prop :=
  match m0, m with
  | None, None => True
  | Some a, Some b => b + Z.of_nat n <= a /\ (0 <= a -> 0 <= b)
  | _, _ => False
  end.

Record RInv (m0 : option Z) (g : ring C J) (d : disk ST) (n : nat) (l : list J) : Prop := mkRI {
  ri_l : exists lc drop, inv (r_comp g) lc /\ NoDup (map job_id lc) /\
         Permutation lc (map snd (r_prog g) ++ map snd (r_replay g) ++ drop) /\ (drop = [] \/ r_stopping g = true);
  ri_kp : keyed (r_prog g);
  ri_kr : keyed (r_replay g);
  ri_fl : Permutation (map snd (r_prog g)) l;
  ri_d : ondisk (r_void g) (r_comp g) d;
  ri_m : limit_ok m0 (r_max g) n
}.

Lemma NoDup_parts {X} (a b c : list X) : NoDup (a ++ b ++ c) -> NoDup a /\ NoDup b /\ forall x, In x a -> ~ In x b.
Proof.
  induction a as [|x a IH]; cbn [app]; intros H.
  - split; [constructor|]. split; [|intros ? []]. induction b as [|y b IHb]; [constructor|]. cbn [app] in H. inversion H as [|? ? N ND]; subst.
    constructor; [rewrite in_app_iff in N; tauto|auto].
  - inversion H as [|? ? N ND]; subst. destruct (IH ND) as (A & B & D). rewrite !in_app_iff in N.
    split; [constructor; tauto|]. split; [exact B|]. intros z [E|E]; [subst; tauto|]. apply D. exact E.
Qed.

Lemma keys_nodup (g : ring C J) lc drop : keyed (r_prog g) -> keyed (r_replay g) -> NoDup (map job_id lc) ->
  Permutation lc (map snd (r_prog g) ++ map snd (r_replay g) ++ drop) ->
  NoDup (map fst (r_prog g)) /\ NoDup (map fst (r_replay g)) /\ forall k, In k (map fst (r_prog g)) -> ~ In k (map fst (r_replay g)).
Proof.
  intros KP KR ND P. rewrite (keyed_fst _ KP), (keyed_fst _ KR).
  apply (NoDup_parts _ _ (map job_id drop)). rewrite <- !map_app. eapply Permutation_NoDup; [|exact ND]. apply Permutation_map. exact P.
Qed.

Lemma display_ok b m0 g d n l : RInv m0 g d n l -> RInv m0 (update_display comp b g) d n l.
Proof.
  intros [ (lc & drop & I & ND & P & D) KP KR FL DI M]. unfold update_display. destruct b; [|constructor; eauto 8].
  assert (exists x, records x (r_comp g) /\ forall c', records x c' -> ondisk (r_void g) c' d) as (x & RX & OX).
  { unfold ondisk in *. destruct (d_status d) as [[v st|]|]; [|contradiction|].
    - exists (Some st). destruct DI as (A & B & E). split; [exact E|]. intros c' H. auto.
    - exists None. destruct DI as (A & B). split; [exact B|]. auto. }
  destruct (so_report _ _ _ _ _ _ _ SO _ _ _ I RX) as [I' R'].
  constructor; cbn [with_comp r_comp r_void r_prog r_replay r_stopping r_max]; auto. exists lc, drop. auto.
Qed.

Lemma start_ok cf m0 disp d g : ok_cf cf -> good_disk d -> start comp cf m0 disp d = Ok g -> RInv m0 g d 0 [] /\ r_stopping g = false.
Proof.
  intros OC GD E. unfold start in E.
  assert (forall c void, inv c [] -> ondisk void c d -> RInv m0 (mkRing c void [] [] [] false m0) d 0 []) as MK.
  { intros c void I O. constructor; cbn; auto; try constructor.
    - exists [], []. split; [exact I|]. split; [constructor|]. split; [constructor|]. auto.
    - unfold limit_ok. destruct m0; [lia|exact Logic.I]. }
  unfold good_disk in GD. destruct (d_status d) as [[void st|]|] eqn:ED; [|contradiction|].
  - destruct (c_load comp cf st) as [c|] eqn:EL; [|discriminate]. injection E as <-. destruct (so_load _ _ _ _ _ _ _ SO _ _ _ OC GD EL) as [I RC].
    split; [apply display_ok, MK; [exact I|]; unfold ondisk; rewrite ED; auto|]. destruct disp; reflexivity.
  - destruct (c_clean comp cf) as [c|] eqn:EL; [|discriminate]. injection E as <-. destruct (so_clean _ _ _ _ _ _ _ SO _ _ OC EL) as [I RC].
    split; [apply display_ok, MK; [exact I|]; unfold ondisk; rewrite ED; auto|]. destruct disp; reflexivity.
Qed.

Lemma nth_In_cons {X} n (x : X) l d : l = x :: d -> In (nth n l x) l.
Proof. intros ->. destruct (nth_in_or_default n (x :: d) x) as [H|H]; [exact H|]. rewrite H. left. reflexivity. Qed.

Lemma get_ok_ i m0 g d n l : RInv m0 g d n l ->
  match get_job_ comp job_id i g with
  | (g', Ok (Some j)) => RInv m0 g' d (S n) (j :: l) /\ r_stopping g = false /\ r_stopping g' = false /\ r_void g' = r_void g
  | (g', Ok None) => RInv m0 g' d n l /\ r_void g' = r_void g /\
       (r_stopping g' = false -> r_stopping g = false /\ r_replay g = [] /\ r_replay g' = [] /\ exists c', c_get comp (r_comp g) = (c', Ok None) /\ r_comp g' = c')
  | (_, Err _) => False
  end.
Proof.
  intros RI. pose proof RI as [(lc & drop & I & ND & P & D) KP KR FL DI M]. unfold get_job_.
  assert (RInv m0 (halt g) d n l) as HH.
  { constructor; cbn; auto. exists lc, drop. auto. }
  destruct (r_stopping g) eqn:ES; [split; [exact RI|split; [reflexivity|congruence]]|].
  destruct (gi_terminal i); [split; [exact HH|split; [reflexivity|intros X; discriminate X]]|].
  destruct (gi_file i); [split; [exact HH|split; [reflexivity|intros X; discriminate X]]|].
  destruct (match r_max g with Some m => m =? 0 | None => false end) eqn:EM; [split; [exact HH|split; [reflexivity|intros X; discriminate X]]|].
  set (m' := match r_max g with Some m => Some (m - 1) | None => None end).
  assert (limit_ok m0 m' (S n) /\ limit_ok m0 m' n) as [M1 M2].
  { unfold limit_ok in *. unfold m'. destruct m0 as [a|], (r_max g) as [b|]; try contradiction; [|auto].
    apply Z.eqb_neq in EM. lia. }
  assert (drop = []) as -> by (destruct D; [assumption|discriminate]). rewrite app_nil_r in P.
  destruct (keys_nodup g lc [] KP KR ND ltac:(rewrite app_nil_r; exact P)) as (NP & NR & DJ).
  cbn [r_replay r_comp r_prog]. destruct (r_replay g) as [|kv rest] eqn:ER.
  - (* a new game *)
    assert (exists x, records x (r_comp g) /\ forall c', records x c' -> ondisk (r_void g) c' d) as (x & RX & OX).
    { unfold ondisk in *. destruct (d_status d) as [[v st|]|]; [|contradiction|].
      - exists (Some st). destruct DI as (A & B & E). split; [exact E|]. intros c' H. auto.
      - exists None. destruct DI as (A & B). split; [exact B|]. auto. }
    pose proof (so_get _ _ _ _ _ _ _ SO _ _ _ I RX) as G. destruct (c_get comp (r_comp g)) as [c' [[j|]|e]]; [| |contradiction].
    + destruct G as (I' & R' & FR). cbn [with_comp r_prog].
      assert (~ In (job_id j) (map fst (r_prog g))) as NI.
      { rewrite (keyed_fst _ KP). intros X. apply FR. apply Permutation_in with (map job_id (map snd (r_prog g))); [|exact X].
        apply Permutation_map. symmetry. rewrite P. rewrite app_nil_r. apply Permutation_refl. }
      unfold dmem. replace (dget (job_id j) (r_prog g)) with (@None J) by (symmetry; apply dget_None; exact NI).
      cbn [with_games r_stopping r_void]. split; [|auto].
      constructor; cbn [with_games with_comp r_comp r_void r_prog r_replay r_stopping r_max]; auto.
      * exists (j :: lc), []. split; [exact I'|]. split; [cbn [map]; constructor; assumption|]. split; [|auto].
        rewrite (dset_new _ _ _ NI), map_app. cbn [map snd app] in *. rewrite !app_nil_r in *.
        rewrite <- Permutation_cons_append. constructor. exact P.
      * rewrite (dset_new _ _ _ NI). apply Forall_app. split; [exact KP|]. constructor; [reflexivity|constructor].
      * rewrite (dset_new _ _ _ NI), map_app. cbn [map snd]. rewrite <- Permutation_cons_append. constructor. exact FL.
    + destruct G as (I' & R'). split; [|split; [reflexivity|intros _; eauto 8]].
      constructor; cbn [with_comp r_comp r_void r_prog r_replay r_stopping r_max]; auto.
      exists lc, []. cbn [map] in *. rewrite !app_nil_r in *. auto.
  - (* a replay *)
    set (kj := nth (gi_which i) (kv :: rest) kv). assert (In kj (kv :: rest)) as IN by (eapply nth_In_cons; reflexivity).
    destruct kj as [k j]. assert (k = job_id j) as EK.
    { unfold keyed in KR. rewrite Forall_forall in KR. exact (KR _ IN). }
    assert (dget k (kv :: rest) = Some j) as DG by (apply In_dget; assumption).
    pose proof (ddel_perm k j _ NR DG) as DP.
    assert (~ In (job_id j) (map fst (r_prog g))) as NI.
    { intros X. apply (DJ _ X). rewrite <- EK. apply (in_map fst) in IN. exact IN. }
    split; [|auto]. constructor; cbn [with_games r_comp r_void r_prog r_replay r_stopping r_max]; auto.
    + exists lc, []. split; [exact I|]. split; [exact ND|]. split; [|auto]. rewrite P, (dset_new _ _ _ NI), map_app. cbn [map snd].
      rewrite <- app_assoc. apply Permutation_app_head. cbn [app]. rewrite app_nil_r. change (snd kv :: map snd rest) with (map snd (kv :: rest)).
      rewrite (Permutation_map snd DP). apply Permutation_refl.
    + rewrite (dset_new _ _ _ NI). apply Forall_app. split; [exact KP|]. constructor; [reflexivity|constructor].
    + apply keyed_ddel. exact KR.
    + rewrite (dset_new _ _ _ NI), map_app. cbn [map snd]. rewrite <- Permutation_cons_append. constructor. exact FL.
Qed.

Lemma write_ok fail (g : ring C J) (d : disk ST) :
  good_disk d -> saved (c_status comp (r_comp g)) ->
  (forall d', In d' (fst (write_status comp fail g d)) -> good_disk d' /\
     (d_status d' = d_status d \/ d_status d' = Some (FComplete (r_void g) (c_status comp (r_comp g))))) /\
  match snd (write_status comp fail g d) with
  | Ok _ => d_status (last (fst (write_status comp fail g d)) d) = Some (FComplete (r_void g) (c_status comp (r_comp g)))
  | Err e => e = RingmasterError /\ fail <> None
  end.
Proof.
  intros G S. unfold write_status, good_disk in *.
  destruct fail as [[|[|[|n]]]|]; cbn [fst snd last d_status]; (split; [|first [reflexivity|split; [reflexivity|discriminate]]]).
  all: intros d' I; cbn [In] in I; intuition (subst; cbn [d_status]; auto).
Qed.

Lemma ondisk_good v c d : ondisk v c d -> good_disk d.
Proof. unfold ondisk, good_disk. destruct (d_status d) as [[v' st|]|]; tauto. Qed.

Lemma find_flight (g : ring C J) l1 j l2 lc drop : keyed (r_prog g) -> keyed (r_replay g) -> NoDup (map job_id lc) ->
  Permutation lc (map snd (r_prog g) ++ map snd (r_replay g) ++ drop) -> Permutation (map snd (r_prog g)) (l1 ++ j :: l2) ->
  dget (job_id j) (r_prog g) = Some j /\ Permutation (map snd (ddel (job_id j) (r_prog g))) (l1 ++ l2) /\
  Permutation lc (j :: map snd (ddel (job_id j) (r_prog g)) ++ map snd (r_replay g) ++ drop) /\
  ~ In (job_id j) (map fst (r_replay g)).
Proof.
  intros KP KR ND P FL. destruct (keys_nodup g lc drop KP KR ND P) as (NP & NR & DJ).
  assert (In j (map snd (r_prog g))) as IJ by (eapply Permutation_in; [symmetry; exact FL|apply in_or_app; right; left; reflexivity]).
  apply in_map_iff in IJ. destruct IJ as ([k j'] & E & IK). cbn [snd] in E. subst j'.
  assert (k = job_id j) as -> by (unfold keyed in KP; rewrite Forall_forall in KP; exact (KP _ IK)).
  assert (dget (job_id j) (r_prog g) = Some j) as DG by (apply In_dget; assumption).
  pose proof (Permutation_map snd (ddel_perm _ _ _ NP DG)) as DP. cbn [map snd] in DP.
  split; [exact DG|]. split.
  - apply Permutation_cons_inv with j. rewrite <- DP, FL. symmetry. apply Permutation_middle.
  - split; [rewrite P, DP; reflexivity|]. apply DJ. apply (in_map fst) in IK. exact IK.
Qed.

Lemma response_ok fail m0 g d n l1 j l2 r : RInv m0 g d n (l1 ++ j :: l2) -> runs job_id response_id answers j (RanOk r) ->
  exists g' ds x, process_response comp response_id fail r g d = (g', ds, x) /\ r_stopping g' = r_stopping g /\ r_void g' = r_void g /\
    (forall d', In d' ds -> good_disk d' /\
      (d_status d' = d_status d \/ d_status d' = Some (FComplete (r_void g') (c_status comp (r_comp g'))))) /\
    match x with
    | Ok _ => RInv m0 g' (last ds d) n (l1 ++ l2) /\ d_status (last ds d) = Some (FComplete (r_void g') (c_status comp (r_comp g')))
    | Err e => e = RingmasterError /\ fail <> None
    end.
Proof.
  intros [(lc & drop & I & ND & P & D) KP KR FL DI M] (AN & EI). unfold process_response. rewrite EI.
  destruct (find_flight g l1 j l2 lc drop KP KR ND P FL) as (DG & FL' & P' & NR).
  destruct (so_result _ _ _ _ _ _ _ SO _ _ _ _ (so_perm _ _ _ _ _ _ _ SO _ _ _ I P') AN) as (c' & -> & I').
  cbn [with_comp r_prog r_replay]. unfold dmem. rewrite DG.
  set (g2 := with_games _ _ _). destruct (so_status _ _ _ _ _ _ _ SO _ _ I') as [SV RC].
  destruct (write_ok fail g2 d (ondisk_good _ _ _ DI) SV) as [W1 W2].
  destruct (write_status comp fail g2 d) as [ds x]. cbn [fst snd] in *. exists g2, ds, x. split; [reflexivity|]. split; [reflexivity|].
  split; [reflexivity|]. split; [exact W1|]. destruct x as [u|e]; [|exact W2]. split; [|exact W2].
  unfold g2. constructor; cbn [with_games with_comp r_comp r_void r_prog r_replay r_stopping r_max]; auto.
  - eexists _, drop. split; [exact I'|]. split.
    + rewrite P' in ND. cbn [map] in ND. inversion ND; assumption.
    + split; [apply Permutation_refl|exact D].
  - apply keyed_ddel. exact KP.
  - unfold ondisk. rewrite W2. unfold g2. cbn [with_games with_comp r_comp r_void]. auto.
Qed.

Lemma error_ok fail m0 g d n l1 j l2 : RInv m0 g d n (l1 ++ j :: l2) ->
  exists g' ds x, process_error_response comp job_id fail j g d = (g', ds, x) /\ (r_stopping g = true -> r_stopping g' = true) /\
    r_void g' = r_void g + 1 /\
    (forall d', In d' ds -> good_disk d' /\
      (d_status d' = d_status d \/ d_status d' = Some (FComplete (r_void g') (c_status comp (r_comp g'))))) /\
    match x with
    | Ok _ => RInv m0 g' (last ds d) n (l1 ++ l2) /\ d_status (last ds d) = Some (FComplete (r_void g') (c_status comp (r_comp g')))
    | Err e => e = RingmasterError /\ fail <> None
    end.
Proof.
  intros [(lc & drop & I & ND & P & D) KP KR FL DI M]. unfold process_error_response.
  destruct (find_flight g l1 j l2 lc drop KP KR ND P FL) as (DG & FL' & P' & NR).
  cbn [r_comp r_errors r_void r_prog r_replay r_stopping r_max].
  set (prev := match dget (job_id j) (r_errors g) with Some n => n | None => 0 end).
  destruct (so_error _ _ _ _ _ _ _ SO _ _ _ prev (so_perm _ _ _ _ _ _ _ SO _ _ _ I P')) as (c' & stop & retry & -> & I').
  cbn [with_comp r_comp r_errors r_void r_prog r_replay r_stopping r_max]. rewrite DG.
  assert (ND' : NoDup (map job_id (j :: map snd (ddel (job_id j) (r_prog g)) ++ map snd (r_replay g) ++ drop))) by (rewrite <- P'; exact ND).
  assert (ND'' : NoDup (map job_id (map snd (ddel (job_id j) (r_prog g)) ++ map snd (r_replay g) ++ drop))) by (cbn [map] in ND'; inversion ND'; assumption).
  match goal with |- context [write_status comp fail ?gx d] => set (g3 := gx) end.
  assert (E3 : r_comp g3 = c' /\ r_void g3 = r_void g + 1 /\ r_stopping g3 = r_stopping g /\ r_max g3 = r_max g /\ r_prog g3 = ddel (job_id j) (r_prog g) /\
               r_replay g3 = if retry && negb stop then r_replay g ++ [(job_id j, j)] else r_replay g).
  { unfold g3. destruct (retry && negb stop); cbn; [rewrite (dset_new _ _ _ NR)|]; auto 10. }
  destruct E3 as (E1 & E2 & E3 & E4 & E5 & E6).
  assert (exists l', inv c' l') as (l' & IL).
  { destruct stop; [destruct I'; eauto|destruct retry; eauto]. }
  destruct (so_status _ _ _ _ _ _ _ SO _ _ IL) as [SV RC].
  destruct (write_ok fail g3 d (ondisk_good _ _ _ DI) ltac:(rewrite E1; exact SV)) as [W1 W2].
  destruct (write_status comp fail g3 d) as [ds x]. cbn [fst snd] in *.
  set (g4 := if stop && negb (r_stopping g3) then halt g3 else g3).
  assert (r_comp g4 = r_comp g3 /\ r_void g4 = r_void g3 /\ r_max g4 = r_max g3 /\ r_prog g4 = r_prog g3 /\ r_replay g4 = r_replay g3) as (F1 & F2 & F3 & F4 & F5).
  { unfold g4. destruct (stop && negb (r_stopping g3)); cbn; auto. }
  assert (r_stopping g4 = stop || r_stopping g) as F6.
  { unfold g4. rewrite <- E3. destruct stop, (r_stopping g3) eqn:X; cbn; auto. }
  destruct x as [u|e].
  - exists g4, ds, (Ok tt). split; [reflexivity|]. split; [rewrite F6; intros ->; apply orb_true_r|]. split; [congruence|].
    split; [intros d' ID; rewrite F1, F2; apply W1; exact ID|]. split; [|rewrite F1, F2; exact W2].
    constructor; rewrite ?F1, ?F2, ?F3, ?F4, ?F5, ?F6, ?E1, ?E2, ?E4, ?E5, ?E6; auto.
    + destruct stop; cbn [orb negb andb].
      * rewrite andb_false_r. destruct I' as [I'|I'].
        -- eexists _, (j :: drop). split; [exact I'|]. split; [exact ND'|]. split; [|auto].
           rewrite app_assoc, Permutation_middle, <- app_assoc. reflexivity.
        -- eexists _, drop. split; [exact I'|]. split; [exact ND''|]. split; [reflexivity|auto].
      * rewrite andb_true_r. destruct retry.
        -- eexists _, drop. split; [exact I'|]. split; [exact ND'|]. split; [|exact D]. rewrite map_app. cbn [map snd].
           rewrite <- app_assoc. cbn [app]. rewrite (app_assoc _ (map snd (r_replay g)) (j :: drop)), <- Permutation_middle, <- app_assoc. reflexivity.
        -- eexists _, drop. split; [exact I'|]. split; [exact ND''|]. split; [reflexivity|exact D].
    + apply keyed_ddel. exact KP.
    + destruct (retry && negb stop); [|exact KR]. apply Forall_app. split; [exact KR|constructor; [reflexivity|constructor]].
    + unfold ondisk. rewrite W2. rewrite E1, E2. auto.
  - exists g3, ds, (Err e). split; [reflexivity|]. split; [congruence|]. split; [exact E2|]. split; [exact W1|exact W2].
Qed.


Notation src := (ring_source comp job_id response_id).
Notation runs' := (runs job_id response_id answers).

Lemma given_snoc (cs : list (call J R)) c : given (cs ++ [c]) = given cs ++ match c with CallGet (Ok (Some j)) => [j] | _ => [] end.
Proof. unfold given. rewrite flat_map_app. cbn [flat_map]. rewrite app_nil_r. reflexivity. Qed.
Lemma errors_snoc (cs : list (call J R)) c : errors (cs ++ [c]) = errors cs + match c with CallDeliver (JobError _ _) _ => 1 | _ => 0 end.
Proof. unfold errors. rewrite flat_map_app, app_length. destruct c as [|[|]]; cbn; lia. Qed.

Lemma get_ok i m0 g d n l : RInv m0 g d n l ->
  match get_job comp job_id i g with
  | (g', Ok (Some j)) => RInv m0 g' d (S n) (j :: l) /\ r_stopping g = false /\ r_stopping g' = false /\ r_void g' = r_void g
  | (g', Ok None) => RInv m0 g' d n l /\ r_void g' = r_void g /\ (r_stopping g' = false -> r_stopping g = false /\ r_replay g = [] /\ r_replay g' = [] /\
       exists c', c_get comp (r_comp g) = (c', Ok None) /\ (r_comp g' = c' \/ r_comp g' = c_report comp c'))
  | (_, Err _) => False
  end.
Proof.
  intros RI. pose proof (get_ok_ i _ _ _ _ _ RI) as G. unfold get_job. destruct (get_job_ comp job_id i g) as [g' [[j|]|e]]; [| |contradiction].
  - destruct G as (A & B & C0 & D). split; [apply display_ok; exact A|]. unfold update_display. destruct (gi_display i); auto.
  - destruct G as (A & V & B). split; [apply display_ok; exact A|]. split; [unfold update_display; destruct (gi_display i); exact V|].
    intros E. assert (r_stopping g' = false) as E' by (unfold update_display in E; destruct (gi_display i); exact E).
    destruct (B E') as (B1 & B2 & B3 & c' & B4 & B5). unfold update_display. destruct (gi_display i); cbn [with_comp r_comp r_replay]; subst c'; eauto 10.
Qed.

Lemma history_ok n m0 s l0 cs s' l : history src runs' n s l0 cs s' l -> l0 = [] -> RInv m0 (fst s) (snd s) 0 [] ->
  RInv m0 (fst s') (snd s') (List.length (given cs)) l /\
  r_void (fst s') = r_void (fst s) + errors cs /\
  (r_stopping (fst s') = false -> r_stopping (fst s) = false).
Proof.
  intros H. induction H as [s l|s l cs s1 l1 j s2 H IH HL HG|s l cs s1 l1 s2 H IH HL HG|s l cs s1 a j b r s2 H IH HR HD|s l cs s1 a j b m s2 H IH HR HD];
    intros -> RI; [split; [exact RI|split; [cbn; lia|auto]]| | | |]; destruct (IH eq_refl RI) as (A & V & ST0); rewrite given_snoc, errors_snoc.
  - destruct HG as (i & EG & ED). pose proof (get_ok i _ _ _ _ _ A) as G. rewrite EG in G. destruct G as (G1 & G2 & G3 & G4).
    rewrite ED, app_length, Nat.add_1_r. split; [exact G1|]. split; [lia|auto].
  - destruct HG as (i & EG & ED). pose proof (get_ok i _ _ _ _ _ A) as G. rewrite EG in G. destruct G as (G1 & G2 & G3).
    rewrite ED, app_nil_r. split; [exact G1|]. split; [lia|]. intros X. destruct (G3 X) as (G4 & _). auto.
  - destruct HD as (f & ds & EP & ED). destruct (response_ok f _ _ _ _ _ _ _ _ A HR) as (g' & ds' & x & E & S1 & S2 & S3 & S4).
    rewrite EP in E. injection E as <- <- <-. rewrite ED, app_nil_r. split; [apply S4|]. split; [lia|]. rewrite S1. exact ST0.
  - destruct HD as (f & ds & EP & ED). destruct (error_ok f _ _ _ _ _ _ _ A) as (g' & ds' & x & E & S1 & S2 & S3 & S4).
    rewrite EP in E. injection E as <- <- <-. rewrite ED, app_nil_r. split; [apply S4|]. split; [lia|]. intros X. apply ST0. destruct (r_stopping (fst s1)); [|reflexivity].
    rewrite S1 in X by reflexivity. discriminate.
Qed.

Lemma reach_ok x d : reach comp job_id response_id ok_cf answers x d -> good_disk d /\
  match x with Some u => RInv (ru_max u) (ru_ring u) d (List.length (given (ru_calls u))) (ru_flight u) | None => True end.
Proof.
  induction 1 as [|x d cf max disp g n cs g' d' l H IH OC ES HH|u d j r f g' ds x d' H IH IJ HR EP ID|u d j f g' ds x d' H IH IJ EP ID|x d H IH].
  - split; [exact Logic.I|exact Logic.I].
  - destruct IH as [GD _]. destruct (start_ok _ _ _ _ _ OC GD ES) as [RI _]. destruct (history_ok _ _ _ _ _ _ _ HH eq_refl RI) as (A & _ & _).
    cbn [fst snd ru_max ru_ring ru_calls ru_flight] in *. split; [eapply ondisk_good; apply (ri_d _ _ _ _ _ A)|exact A].
  - destruct IH as [GD RI]. apply in_split in IJ. destruct IJ as (l1 & l2 & EL). rewrite EL in RI.
    destruct (response_ok f _ _ _ _ _ _ _ _ RI HR) as (g2 & ds2 & x2 & E & _ & _ & W & _). rewrite EP in E. injection E as <- <- <-.
    split; [apply W; exact ID|exact Logic.I].
  - destruct IH as [GD RI]. apply in_split in IJ. destruct IJ as (l1 & l2 & EL). rewrite EL in RI.
    destruct (error_ok f _ _ _ _ _ _ _ RI) as (g2 & ds2 & x2 & E & _ & _ & W & _). rewrite EP in E. injection E as <- <- <-.
    split; [apply W; exact ID|exact Logic.I].
  - split; [exact Logic.I|exact Logic.I].
Qed.

Lemma C29_in_progress_proof u d : reach comp job_id response_id ok_cf answers (Some u) d ->
  Permutation (map snd (r_prog (ru_ring u))) (ru_flight u) /\ NoDup (map fst (r_prog (ru_ring u))) /\
  forall k j, In (k, j) (r_prog (ru_ring u)) -> k = job_id j.
Proof.
  intros H. destruct (reach_ok _ _ H) as (_ & [(lc & drop & I & ND & P & D) KP KR FL DI M]). split; [exact FL|]. split.
  - apply (keys_nodup _ lc drop KP KR ND P).
  - intros k j IK. unfold keyed in KP. rewrite Forall_forall in KP. exact (KP _ IK).
Qed.

Lemma C29_limit_proof u d m : reach comp job_id response_id ok_cf answers (Some u) d -> ru_max u = Some m -> 0 <= m ->
  Z.of_nat (List.length (given (ru_calls u))) <= m.
Proof.
  intros H E M0. destruct (reach_ok _ _ H) as (_ & [_ _ _ _ _ M]). unfold limit_ok in M. rewrite E in M.
  destruct (r_max (ru_ring u)); [|contradiction]. lia.
Qed.

Lemma C29_status_proof x d : reach comp job_id response_id ok_cf answers x d ->
  match d_status d with Some FPartial => False | Some (FComplete _ st) => saved st | None => True end /\
  forall u, x = Some u -> match d_status d with
    | None => r_void (ru_ring u) = 0 /\ records None (r_comp (ru_ring u))
    | Some (FComplete v st) => v = r_void (ru_ring u) /\ records (Some st) (r_comp (ru_ring u))
    | Some FPartial => False
    end.
Proof.
  intros H. destruct (reach_ok _ _ H) as (G & RI). split; [exact G|]. intros u ->. destruct RI as [_ _ _ _ D _]. unfold ondisk in D.
  destruct (d_status d) as [[v st|]|]; tauto.
Qed.

Lemma C29_response_proof u d j r f : reach comp job_id response_id ok_cf answers (Some u) d -> In j (ru_flight u) -> runs' j (RanOk r) ->
  exists g' ds x, process_response comp response_id f r (ru_ring u) d = (g', ds, x) /\
    (x = Ok tt \/ x = Err RingmasterError /\ f <> None) /\
    (forall d', In d' ds -> d_status d' = d_status d \/ d_status d' = Some (FComplete (r_void g') (c_status comp (r_comp g')))) /\
    (x = Ok tt -> d_status (last ds d) = Some (FComplete (r_void g') (c_status comp (r_comp g')))).
Proof.
  intros H IJ HR. destruct (reach_ok _ _ H) as (_ & RI). apply in_split in IJ. destruct IJ as (l1 & l2 & EL). rewrite EL in RI.
  destruct (response_ok f _ _ _ _ _ _ _ _ RI HR) as (g2 & ds2 & x2 & E & _ & _ & W & W2). exists g2, ds2, x2. split; [exact E|].
  destruct x2 as [[]|e]; [|destruct W2 as [-> W2]]; (split; [auto|split; [intros d' ID; apply W; exact ID|]]); [intros _; apply W2|discriminate].
Qed.

Lemma C29_error_proof u d j f : reach comp job_id response_id ok_cf answers (Some u) d -> In j (ru_flight u) ->
  exists g' ds x, process_error_response comp job_id f j (ru_ring u) d = (g', ds, x) /\
    (x = Ok tt \/ x = Err RingmasterError /\ f <> None) /\
    (forall d', In d' ds -> d_status d' = d_status d \/ d_status d' = Some (FComplete (r_void g') (c_status comp (r_comp g')))) /\
    (x = Ok tt -> d_status (last ds d) = Some (FComplete (r_void g') (c_status comp (r_comp g')))).
Proof.
  intros H IJ. destruct (reach_ok _ _ H) as (_ & RI). apply in_split in IJ. destruct IJ as (l1 & l2 & EL). rewrite EL in RI.
  destruct (error_ok f _ _ _ _ _ _ _ RI) as (g2 & ds2 & x2 & E & _ & _ & W & W2). exists g2, ds2, x2. split; [exact E|].
  destruct x2 as [[]|e]; [|destruct W2 as [-> W2]]; (split; [auto|split; [intros d' ID; apply W; exact ID|]]); [intros _; apply W2|discriminate].
Qed.

Lemma C29_get_proof u d i : reach comp job_id response_id ok_cf answers (Some u) d -> exists a, snd (get_job comp job_id i (ru_ring u)) = Ok a.
Proof.
  intros H. destruct (reach_ok _ _ H) as (_ & RI). pose proof (get_ok i _ _ _ _ _ RI) as G.
  destruct (get_job comp job_id i (ru_ring u)) as [g' [[j|]|e]]; [| |contradiction]; cbn [snd]; eauto.
Qed.

Lemma C29_void_proof x d cf max disp g n cs g' d' l : reach comp job_id response_id ok_cf answers x d -> ok_cf cf ->
  start comp cf max disp d = Ok g -> history src runs' n (g, d) [] cs (g', d') l ->
  r_void g' = (match d_status d with Some (FComplete v _) => v | _ => 0 end) + errors cs.
Proof.
  intros H OC ES HH. destruct (reach_ok _ _ H) as (GD & _). destruct (start_ok _ _ _ _ _ OC GD ES) as [RI _].
  destruct (history_ok _ _ _ _ _ _ _ HH eq_refl RI) as (_ & V & _). cbn [fst] in V. rewrite V.
  replace (r_void g) with (match d_status d with Some (FComplete v _) => v | _ => 0 end); [reflexivity|].
  destruct RI as [_ _ _ _ D _]. unfold ondisk in D. unfold start in ES. destruct (d_status d) as [[v st|]|]; [|contradiction|]; destruct D; congruence.
Qed.

Lemma no_raise n m0 s cs s2 e : history_raises src runs' n s [] cs s2 e -> RInv m0 (fst s) (snd s) 0 [] -> e = RingmasterError.
Proof.
  intros H RI. destruct H as [cs1 s1 l1 H HL HG E|cs1 s1 a j b r H HR HD E|cs1 s1 a j b m H HR HD E];
    destruct (history_ok _ _ _ _ _ _ _ H eq_refl RI) as (A & _ & _).
  - destruct HG as (i & EG & ED). pose proof (get_ok i _ _ _ _ _ A) as G. rewrite EG in G. contradiction.
  - destruct HD as (f & ds & EP & ED). destruct (response_ok f _ _ _ _ _ _ _ _ A HR) as (g' & ds' & x & E2 & S1 & S2 & S3 & S4).
    rewrite EP in E2. injection E2 as <- <- <-. tauto.
  - destruct HD as (f & ds & EP & ED). destruct (error_ok f _ _ _ _ _ _ _ A) as (g' & ds' & x & E2 & S1 & S2 & S3 & S4).
    rewrite EP in E2. injection E2 as <- <- <-. tauto.
Qed.

Lemma C29_raised_proof x d cf max disp g n ls st ce e : (1 <= n)%nat ->
  reach comp job_id response_id ok_cf answers x d -> ok_cf cf -> start comp cf max disp d = Ok g ->
  mrun src runs' (ring_passed ce) n (minit n (g, d)) ls st -> ms_pc st = MRaised e -> e = RingmasterError.
Proof.
  intros NP H OC ES HM PC. destruct (reach_ok _ _ H) as (GD & _). destruct (start_ok _ _ _ _ _ OC GD ES) as [RI _].
  pose proof (C28_calls_proof _ _ _ _ _ _ _ NP HM) as CA. rewrite PC in CA. destruct CA as (e0 & -> & HR).
  rewrite (no_raise _ _ _ _ _ _ HR RI). reflexivity.
Qed.

(** Ending without stopping. *)
Lemma ended n m0 s cs s' : history src runs' n s [] (cs ++ [CallGet (Ok None)]) s' [] -> RInv m0 (fst s) (snd s) 0 [] -> r_stopping (fst s') = false ->
  exists c0 c1, inv c0 [] /\ c_get comp c0 = (c1, Ok None) /\ (r_comp (fst s') = c1 \/ r_comp (fst s') = c_report comp c1) /\
    ondisk (r_void (fst s')) (r_comp (fst s')) (snd s').
Proof.
  intros H RI NS. remember (cs ++ [CallGet (Ok None)]) as cs' eqn:EC. remember (@nil J) as l0 eqn:EL in H at 1. remember (@nil J) as lf eqn:EF in H.
  assert (forall (a b : list (call J R)) x y, a ++ [x] = b ++ [y] -> x = y) as SN by (intros a b x0 y0 E; apply app_inj_tail in E; tauto).
  destruct H as [s l|s l cs1 s1 l1 j s2 H HL HG|s l cs1 s1 l1 s2 H HL HG|s l cs1 s1 a j b r s2 H HR HD|s l cs1 s1 a j b m s2 H HR HD];
    [destruct cs; discriminate|apply SN in EC; discriminate| |apply SN in EC; discriminate|apply SN in EC; discriminate].
  subst l l1. destruct (history_ok _ _ _ _ _ _ _ H eq_refl RI) as (A & _ & _). destruct HG as (i & EG & ED).
  pose proof (get_ok i _ _ _ _ _ A) as G. rewrite EG in G. destruct G as (G1 & _ & G3). destruct (G3 NS) as (G4 & G5 & _ & c' & G6 & G7).
  exists (r_comp (fst s1)), c'. split; [|split; [exact G6|split; [exact G7|rewrite ED; apply G1]]].
  destruct A as [(lc & drop & I & ND & P & D) KP KR FL DI M]. destruct D as [D|D]; [|congruence]. subst drop.
  apply Permutation_sym, Permutation_nil in FL. rewrite FL, G5 in P. cbn in P. apply Permutation_sym, Permutation_nil in P. subst lc. exact I.
Qed.

Lemma stop_final n s l cs s' l' : history src runs' n s l cs s' l' -> r_stopping (fst s) = true -> given cs = [] /\ r_stopping (fst s') = true.
Proof.
  intros H. induction H as [s l|s l cs s1 l1 j s2 H IH HL HG|s l cs s1 l1 s2 H IH HL HG|s l cs s1 a j b r s2 H IH HR HD|s l cs s1 a j b m s2 H IH HR HD];
    intros S0; [auto| | | |]; destruct (IH S0) as (A & B); rewrite given_snoc, A; cbn [app].
  - destruct HG as (i & EG & ED). unfold get_job, get_job_ in EG. rewrite B in EG. discriminate.
  - destruct HG as (i & EG & ED). unfold get_job, get_job_ in EG. rewrite B in EG. split; [reflexivity|].
    assert (fst s2 = update_display comp (gi_display i) (fst s1)) as -> by congruence. unfold update_display. destruct (gi_display i); exact B.
  - destruct HD as (f & ds & EP & ED). split; [reflexivity|]. unfold process_response in EP. destruct (c_result comp r (r_comp (fst s1))) as [c [u|e]].
    + destruct (dmem (response_id r) (r_prog (with_comp c (fst s1)))); [|congruence]. destruct (write_status _ _ _ _) as [? ?]. injection EP as <- _ _. exact B.
    + congruence.
  - destruct HD as (f & ds & EP & ED). split; [reflexivity|]. unfold process_error_response in EP. destruct (c_error _ _ _ _) as [c [[st rt]|e]]; [|congruence].
    destruct (dget _ _) as [j'|]; [|congruence].
    match type of EP with context [write_status comp f ?gx _] => set (g3 := gx) in * end.
    assert (r_stopping g3 = true) as E3 by (unfold g3; destruct (rt && negb st); exact B).
    destruct (write_status _ _ _ _) as [ds' [u|e]].
    + injection EP as <- _. destruct (st && negb (r_stopping g3)); [reflexivity|exact E3].
    + discriminate.
Qed.

Lemma C29_retry_proof u d j c' f : reach comp job_id response_id ok_cf answers (Some u) d -> In j (ru_flight u) ->
  (forall n, c_error comp j n (r_comp (ru_ring u)) = (c', Ok (false, true))) ->
  exists g' ds x, process_error_response comp job_id f j (ru_ring u) d = (g', ds, x) /\ In j (map snd (r_replay g')).
Proof.
  intros H IJ EC. destruct (reach_ok _ _ H) as (_ & RI). apply in_split in IJ. destruct IJ as (l1 & l2 & EL). rewrite EL in RI.
  destruct RI as [(lc & drop & I & ND & P & D) KP KR FL DI M].
  destruct (find_flight _ l1 j l2 lc drop KP KR ND P FL) as (DG & FL' & P' & NR).
  unfold process_error_response. cbn [r_comp]. rewrite EC. cbn [with_comp r_prog]. rewrite DG. cbn [andb negb r_replay].
  match goal with |- context [write_status comp f ?gx _] => set (g3 := gx) end.
  assert (In j (map snd (r_replay g3))) as IN.
  { unfold g3. cbn [r_replay with_comp]. rewrite (dset_new _ _ _ NR), map_app. apply in_or_app. right. left. reflexivity. }
  destruct (write_status comp f g3 d) as [ds [u0|e]]; eauto 8.
Qed.

Lemma C29_replayed_proof i (g : ring C J) m : r_stopping g = false -> gi_terminal i = false -> gi_file i = false ->
  r_max g = m -> m <> Some 0 -> r_replay g <> [] ->
  exists j, snd (get_job comp job_id i g) = Ok (Some j) /\ In j (map snd (r_replay g)).
Proof.
  intros S1 S2 S3 EM NM NR. unfold get_job, get_job_. rewrite S1, S2, S3, EM.
  replace (match m with Some m1 => m1 =? 0 | None => false end) with false.
  - cbn [r_replay]. destruct (r_replay g) as [|kv rest] eqn:ER; [congruence|].
    pose proof (nth_In_cons (gi_which i) kv (kv :: rest) rest eq_refl) as IN. destruct (nth (gi_which i) (kv :: rest) kv) as [k j].
    exists j. split; [reflexivity|]. apply (in_map snd) in IN. exact IN.
  - destruct m as [m|]; [|reflexivity]. symmetry. apply Z.eqb_neq. congruence.
Qed.

End Ring.
