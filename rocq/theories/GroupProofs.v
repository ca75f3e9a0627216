(** Proofs about Group_scheduler (C24). *)
From Verif Require Import Base Bytes Dict SchedModel SchedSpec SchedProofs.
From Coq Require Import Permutation.

Definition RA (kv : bytes * ssched) (gr : group) : Prop :=
  fst kv = gr_code gr /\ R (snd kv) (gr_bag gr).

Definition RG (g : gsched) (gs : list group) : Prop :=
  Forall2 RA (allocators g) gs /\
  limits g = map (fun gr => (gr_code gr, gr_limit gr)) gs /\
  priorities g = combine (map gr_code gs) (seq 0 (List.length gs)) /\
  NoDup (map gr_code gs).

Lemma RA_l al gs : Forall2 RA al gs -> forall kv, In kv al -> exists gr, In gr gs /\ RA kv gr.
Proof.
  induction 1 as [|x y al gs H F IH]; intros kv I; [destruct I|].
  destruct I as [->|I]; [exists y; simpl; auto|]. destruct (IH _ I) as (gr & I2 & H2). exists gr. simpl. auto.
Qed.

Lemma RA_r al gs : Forall2 RA al gs -> forall gr, In gr gs -> exists kv, In kv al /\ RA kv gr.
Proof.
  induction 1 as [|x y al gs H F IH]; intros gr I; [destruct I|].
  destruct I as [->|I]; [exists x; simpl; auto|]. destruct (IH _ I) as (kv & I2 & H2). exists kv. simpl. auto.
Qed.

Definition belowb (gr : group) : bool :=
  match gr_limit gr with None => true | Some l => issued_count (gr_bag gr) <? l end.

Lemma belowb_spec gr : belowb gr = true <-> below_limit gr.
Proof.
  unfold belowb, below_limit. destruct (gr_limit gr); [apply Z.ltb_lt|tauto].
Qed.

Definition entry (k : nat) (gr : group) : list (Z * nat * bytes) :=
  if belowb gr then [(issued_count (gr_bag gr), k, gr_code gr)] else [].

Fixpoint avail_spec (k : nat) (gs : list group) : list (Z * nat * bytes) :=
  match gs with [] => [] | gr :: r => entry k gr ++ avail_spec (S k) r end.

Lemma avail_in : forall gs k0 i k c, In (i, k, c) (avail_spec k0 gs) ->
  exists gs1 gr gs2, gs = gs1 ++ gr :: gs2 /\ k = (k0 + List.length gs1)%nat /\ below_limit gr /\
    i = issued_count (gr_bag gr) /\ c = gr_code gr.
Proof.
  induction gs as [|gr gs IH]; simpl; intros k0 i k c H; [tauto|].
  apply in_app_iff in H. destruct H as [H|H].
  - unfold entry in H. destruct (belowb gr) eqn:B; [|destruct H]. destruct H as [H|[]].
    inversion H; subst. exists [], gr, gs. simpl. rewrite Nat.add_0_r.
    repeat split; auto. apply belowb_spec. auto.
  - apply IH in H. destruct H as (gs1 & g1 & gs2 & -> & -> & B & -> & ->).
    exists (gr :: gs1), g1, gs2. simpl. repeat split; auto; lia.
Qed.

Lemma avail_mem gs1 gr gs2 k0 : below_limit gr ->
  In (issued_count (gr_bag gr), (k0 + List.length gs1)%nat, gr_code gr) (avail_spec k0 (gs1 ++ gr :: gs2)).
Proof.
  intros B. revert k0. induction gs1 as [|g1 gs1 IH]; intros k0; simpl; apply in_app_iff.
  - left. unfold entry. apply belowb_spec in B. rewrite B, Nat.add_0_r. left. auto.
  - right. specialize (IH (S k0)). replace (k0 + S (List.length gs1))%nat with (S k0 + List.length gs1)%nat by lia.
    exact IH.
Qed.

(** ** [min] of the tuples *)
Definition lexle (x y : Z * nat * bytes) : Prop :=
  fst (fst x) < fst (fst y) \/
  fst (fst x) = fst (fst y) /\ (snd (fst x) <= snd (fst y))%nat.

Lemma lexle_trans x y z : lexle x y -> lexle y z -> lexle x z.
Proof. unfold lexle. lia. Qed.

Lemma tuple_ltb_true x y : tuple_ltb x y = true -> lexle x y.
Proof.
  destruct x as [[i p] c], y as [[i' p'] c']. unfold tuple_ltb, lexle. simpl.
  destruct (Z.ltb_spec i i'); auto. destruct (Z.ltb_spec i' i); [discriminate|].
  destruct (Nat.ltb_spec p p'); [intros; lia|]. destruct (Nat.ltb_spec p' p); [discriminate|]. lia.
Qed.

Lemma tuple_ltb_false x y : tuple_ltb x y = false -> lexle y x.
Proof.
  destruct x as [[i p] c], y as [[i' p'] c']. unfold tuple_ltb, lexle. simpl.
  destruct (Z.ltb_spec i i'); [discriminate|]. destruct (Z.ltb_spec i' i); [lia|].
  destruct (Nat.ltb_spec p p'); [discriminate|]. lia.
Qed.

Lemma tuple_min_spec l : forall x, In (tuple_min x l) (x :: l) /\
  forall y, In y (x :: l) -> lexle (tuple_min x l) y.
Proof.
  unfold tuple_min. induction l as [|z l IH]; simpl; intros x.
  - split; auto. intros y [->|[]]. unfold lexle. lia.
  - destruct (tuple_ltb z x) eqn:E.
    + destruct (IH z) as [I1 I2]. simpl in I1. split; [tauto|].
      intros y [->|[->|H]].
      * eapply lexle_trans; [apply I2; left; auto|]. apply tuple_ltb_true. auto.
      * apply I2. left. auto.
      * apply I2. right. auto.
    + destruct (IH x) as [I1 I2]. simpl in I1. split; [tauto|].
      intros y [->|[->|H]].
      * apply I2. left. auto.
      * eapply lexle_trans; [apply I2; left; auto|]. apply tuple_ltb_false. auto.
      * apply I2. right. auto.
Qed.

(** ** The available list *)
Lemma In_combine_mid {A} (c1 : list A) c c2 k0 :
  In (c, (k0 + List.length c1)%nat) (combine (c1 ++ c :: c2) (seq k0 (List.length (c1 ++ c :: c2)))).
Proof.
  revert k0. induction c1 as [|x c1 IH]; intros k0; simpl.
  - left. f_equal. lia.
  - right. replace (k0 + S (List.length c1))%nat with (S k0 + List.length c1)%nat by lia. apply IH.
Qed.

Lemma combine_fst {A B} (a : list A) (b : list B) : List.length a = List.length b -> map fst (combine a b) = a.
Proof.
  revert b. induction a as [|x a IH]; intros [|y b]; simpl; intros E; try discriminate; auto.
  f_equal. apply IH. lia.
Qed.

Lemma RG_limit g gs1 gr gs2 : RG g (gs1 ++ gr :: gs2) ->
  dget (gr_code gr) (limits g) = Some (gr_limit gr).
Proof.
  intros (_ & L & _ & ND). apply In_dget.
  - rewrite L, map_map. exact ND.
  - rewrite L. apply in_map_iff. exists gr. split; auto. apply in_app_iff. right. left. auto.
Qed.

Lemma RG_priority g gs1 gr gs2 : RG g (gs1 ++ gr :: gs2) ->
  dget (gr_code gr) (priorities g) = Some (List.length gs1).
Proof.
  intros (_ & _ & P & ND). apply In_dget.
  - rewrite P, combine_fst; auto. rewrite map_length, seq_length. auto.
  - rewrite P. rewrite <- (map_length gr_code (gs1 ++ gr :: gs2)). rewrite map_app. simpl map.
    pose proof (In_combine_mid (map gr_code gs1) (gr_code gr) (map gr_code gs2) 0) as H.
    rewrite map_length in H. exact H.
Qed.

(** One entry of the loop, for the allocator of group number [length gs1]. *)
Lemma available_one g gs1 gr gs2 s rest : RG g (gs1 ++ gr :: gs2) -> R s (gr_bag gr) ->
  available g ((gr_code gr, s) :: rest) =
  (do tl <- available g rest; Ok (entry (List.length gs1) gr ++ tl)).
Proof.
  intros H HR. cbn [available]. rewrite (RG_limit _ _ _ _ H). rewrite (RG_priority _ _ _ _ H).
  assert (match gr_limit gr with None => true | Some l => issued s <? l end = belowb gr) as ->.
  { unfold belowb. destruct HR as (_ & _ & -> & _). reflexivity. }
  unfold entry. destruct (available g rest); simpl; auto. destruct (belowb gr); auto.
  destruct HR as (_ & _ & -> & _). reflexivity.
Qed.

Lemma available_suffix g : forall gs2 al gs1, RG g (gs1 ++ gs2) -> Forall2 RA al gs2 ->
  available g al = Ok (avail_spec (List.length gs1) gs2).
Proof.
  induction gs2 as [|gr gs2 IH]; intros al gs1 H F; inversion F as [|[c s] ? al' ? [E HR] F']; subst.
  - reflexivity.
  - simpl in E, HR. subst c. rewrite (available_one _ _ _ _ _ _ H HR).
    rewrite (IH al' (gs1 ++ [gr])).
    + rewrite app_length. simpl. rewrite Nat.add_1_r. reflexivity.
    + rewrite <- app_assoc. exact H.
    + exact F'.
Qed.

Lemma available_all g gs : RG g gs -> available g (allocators g) = Ok (avail_spec 0 gs).
Proof. intros H. apply (available_suffix g gs (allocators g) []); [exact H|apply H]. Qed.

Lemma available_cons_ok g c s al l : available g ((c, s) :: al) = Ok l ->
  exists e tl, available g al = Ok tl /\ l = e ++ tl /\
    forall al2, available g ((c, s) :: al2) = (do tl <- available g al2; Ok (e ++ tl)).
Proof.
  cbn [available]. destruct (dget c (limits g)) as [lim|]; [|discriminate].
  destruct (available g al) as [tl|]; [|discriminate]. cbn [bind].
  set (b := match lim with None => true | Some l => issued s <? l end).
  destruct b.
  - destruct (dget c (priorities g)) as [p|]; [|discriminate]. intros E. inversion E.
    exists [(issued s, p, c)], tl. repeat split; auto.
  - intros E. inversion E. exists [], l. repeat split; auto.
Qed.

Lemma available_perm g al al2 : Permutation al al2 -> forall l, available g al = Ok l ->
  exists l2, available g al2 = Ok l2 /\ Permutation l l2.
Proof.
  induction 1 as [|[c s] al al2 P IH|[c s] [c2 s2] al|al al2 al3 P1 IH1 P2 IH2]; intros l E.
  - eauto.
  - apply available_cons_ok in E. destruct E as (e & tl & E & -> & X).
    destruct (IH _ E) as (l2 & E2 & P2). rewrite X, E2. simpl. eexists. split; eauto.
    apply Permutation_app_head. auto.
  - apply available_cons_ok in E. destruct E as (e & tl & E & -> & X).
    apply available_cons_ok in E. destruct E as (e2 & tl2 & E2 & -> & X2).
    rewrite X2. rewrite X. rewrite E2. simpl. eexists. split; eauto.
    rewrite !app_assoc. apply Permutation_app_tail. apply Permutation_app_comm.
  - destruct (IH1 _ E) as (l2 & E2 & Q1). destruct (IH2 _ E2) as (l3 & E3 & Q2).
    exists l3. split; auto. etransitivity; eauto.
Qed.

(** ** Splitting the association lists at a group *)
Lemma dget_mid {A} k (v : A) d1 d2 : ~ In k (map fst d1) -> dget k (d1 ++ (k, v) :: d2) = Some v.
Proof.
  induction d1 as [|[k' v'] d1 IH]; simpl; intros N; [rewrite bytes_eqb_refl; auto|].
  destruct (bytes_eqb_spec k k') as [->|]; [tauto|]. apply IH. tauto.
Qed.

Lemma dset_mid {A} k (v v' : A) d1 d2 : ~ In k (map fst d1) ->
  dset k v' (d1 ++ (k, v) :: d2) = d1 ++ (k, v') :: d2.
Proof.
  induction d1 as [|[k2 v2] d1 IH]; simpl; intros N; [rewrite bytes_eqb_refl; auto|].
  destruct (bytes_eqb_spec k k2) as [->|]; [tauto|]. rewrite IH by tauto. auto.
Qed.

Lemma RA_codes al gs : Forall2 RA al gs -> map fst al = map gr_code gs.
Proof. induction 1 as [|x y al gs [H _] F IH]; simpl; auto. rewrite H, IH. auto. Qed.

Lemma RG_mid g gs1 gr gs2 : RG g (gs1 ++ gr :: gs2) ->
  exists al1 s al2, allocators g = al1 ++ (gr_code gr, s) :: al2 /\
    Forall2 RA al1 gs1 /\ R s (gr_bag gr) /\ Forall2 RA al2 gs2 /\
    ~ In (gr_code gr) (map fst al1).
Proof.
  intros (F & _ & _ & ND). apply Forall2_app_inv_r in F. destruct F as (al1 & al2 & F1 & F2 & ->).
  inversion F2 as [|[c s] ? al3 ? [E HR] F3]; subst. simpl in E, HR. subst c.
  exists al1, s, al3. do 4 (split; [auto|]).
  rewrite (RA_codes _ _ F1). rewrite map_app in ND. apply NoDup_remove_2 in ND.
  intro C. apply ND. apply in_app_iff. auto.
Qed.

Lemma RG_update g gs1 gr gs2 s al1 al2 s' b' :
  RG g (gs1 ++ gr :: gs2) -> allocators g = al1 ++ (gr_code gr, s) :: al2 ->
  Forall2 RA al1 gs1 -> Forall2 RA al2 gs2 -> R s' b' -> ~ In (gr_code gr) (map fst al1) ->
  RG (mkGS (dset (gr_code gr) s' (allocators g)) (limits g) (priorities g))
     (gs1 ++ mkGr (gr_code gr) (gr_limit gr) b' :: gs2).
Proof.
  intros (F & L & P & ND) E F1 F2 HR N. unfold RG. cbn [allocators limits priorities].
  rewrite E, dset_mid by auto. repeat split.
  - apply Forall2_app; auto. constructor; auto. split; auto.
  - rewrite L, !map_app. reflexivity.
  - rewrite P, !map_app, !app_length. reflexivity.
  - rewrite map_app in *. exact ND.
Qed.

Lemma RG_codes_inj g gs1 gr gs2 h1 h h2 : RG g (gs1 ++ gr :: gs2) ->
  gs1 ++ gr :: gs2 = h1 ++ h :: h2 -> List.length gs1 = List.length h1 -> gr = h.
Proof.
  intros _ E L. revert h1 E L. induction gs1 as [|x gs1 IH]; intros [|y h1]; simpl; intros E L; try discriminate.
  - congruence.
  - inversion E. apply (IH h1); auto.
Qed.

Lemma gissue_correct g gs : RG g gs ->
  (exists gs1 gr gs2 t g', gs = gs1 ++ gr :: gs2 /\ chosen gs1 gr gs2 /\ next_token_of (gr_bag gr) t /\
     (forall order, Permutation order (allocators g) ->
        gissue_in_order g order = (g', Ok (Some (gr_code gr, t)))) /\
     RG g' (gs1 ++ mkGr (gr_code gr) (gr_limit gr) (mkB (b_fixed (gr_bag gr)) (t :: b_out (gr_bag gr))) :: gs2)) \/
  ((forall gr, In gr gs -> ~ below_limit gr) /\
   forall order, Permutation order (allocators g) -> gissue_in_order g order = (g, Ok None)).
Proof.
  intros H. pose proof (available_all g gs H) as EA.
  destruct (avail_spec 0 gs) as [|x l] eqn:E.
  - right. split.
    + intros gr I B. apply in_split in I. destruct I as (gs1 & gs2 & ->).
      pose proof (avail_mem gs1 gr gs2 0 B) as C. rewrite E in C. destruct C.
    + intros order P. destruct (available_perm g _ _ (Permutation_sym P) _ EA) as (l2 & E2 & P2).
      apply Permutation_nil in P2. subst. unfold gissue_in_order. rewrite E2. reflexivity.
  - left.
    destruct (tuple_min_spec l x) as [M1 M2]. destruct (tuple_min x l) as [[i k] c] eqn:Em.
    pose proof M1 as M0. rewrite <- E in M1. apply avail_in in M1.
    destruct M1 as (gs1 & gr & gs2 & Eg & Ek & B & -> & ->). simpl in Ek. subst k gs.
    destruct (RG_mid _ _ _ _ H) as (al1 & s & al2 & Ea & F1 & HR & F2 & N).
    destruct (issue s) as [s' t] eqn:Ei.
    destruct (R_issue _ _ _ _ HR Ei) as [Nt HR'].
    exists gs1, gr, gs2, t, (mkGS (dset (gr_code gr) s' (allocators g)) (limits g) (priorities g)).
    split; [auto|]. split; [|split; [exact Nt|split]].
    + split; [exact B|]. split.
      * intros h I Bh. apply in_split in I. destruct I as (h1 & h2 & ->).
        pose proof (avail_mem h1 h (h2 ++ gr :: gs2) 0 Bh) as C.
        rewrite <- app_assoc in E. cbn [app] in E. rewrite E in C. apply M2 in C.
        unfold lexle in C. cbn [fst snd] in C. rewrite app_length in C. simpl in C. lia.
      * intros h I Bh. apply in_split in I. destruct I as (h1 & h2 & ->).
        pose proof (avail_mem (gs1 ++ gr :: h1) h h2 0 Bh) as C.
        rewrite <- app_assoc in C. cbn [app] in C. rewrite E in C. apply M2 in C.
        unfold lexle in C. cbn [fst snd] in C. lia.
    + intros order P. destruct (available_perm g _ _ (Permutation_sym P) _ EA) as (l2 & E2 & P2).
      unfold gissue_in_order. rewrite E2. destruct l2 as [|x2 l2].
      { apply Permutation_sym, Permutation_nil in P2. discriminate. }
      assert (snd (tuple_min x2 l2) = gr_code gr) as ->.
      { destruct (tuple_min_spec l2 x2) as [Q1 Q2]. destruct (tuple_min x2 l2) as [[i2 k2] c2].
        assert (lexle (i2, k2, c2) (issued_count (gr_bag gr), List.length gs1, gr_code gr)) as L1.
        { apply Q2. eapply Permutation_in; [exact P2|exact M0]. }
        assert (In (i2, k2, c2) (x :: l)) as I2.
        { eapply Permutation_in; [symmetry; exact P2|exact Q1]. }
        pose proof (M2 _ I2) as L2.
        unfold lexle in L1, L2. cbn [fst snd] in L1, L2.
        rewrite <- E in I2. apply avail_in in I2.
        destruct I2 as (h1 & h & h2 & Eh & Ek & _ & _ & ->). simpl in Ek. subst k2. cbn [snd].
        assert (gr = h); [|congruence].
        eapply RG_codes_inj; [exact H|exact Eh|lia]. }
      rewrite Ea, dget_mid by auto. rewrite Ei. reflexivity.
    + eapply RG_update; eauto.
Qed.

Lemma RG_code_unique g gs1 gr gs2 h : RG g (gs1 ++ gr :: gs2) ->
  In h (gs1 ++ gr :: gs2) -> gr_code h = gr_code gr -> h = gr.
Proof.
  intros (_ & _ & _ & ND) I E. rewrite map_app in ND. simpl in ND. apply NoDup_remove_2 in ND.
  apply in_app_iff in I. destruct I as [I|[I|I]]; auto; exfalso; apply ND; apply in_app_iff;
    [left|right]; rewrite <- E; apply in_map; auto.
Qed.

Lemma gfix_correct g gs c t : RG g gs ->
  (exists gs1 l f o1 o2 gs2, gs = gs1 ++ mkGr c l (mkB f (o1 ++ t :: o2)) :: gs2 /\
     snd (gfix g c t) = Ok tt /\
     RG (fst (gfix g c t)) (gs1 ++ mkGr c l (mkB (t :: f) (o1 ++ o2)) :: gs2)) \/
  ((forall gr, In gr gs -> gr_code gr = c -> ~ In t (b_out (gr_bag gr))) /\
   snd (gfix g c t) = Err KeyError /\ RG (fst (gfix g c t)) gs).
Proof.
  intros H. unfold gfix.
  destruct (dget c (allocators g)) as [a|] eqn:Ed.
  - assert (In c (map gr_code gs)) as I.
    { destruct H as (F & _). rewrite <- (RA_codes _ _ F). apply dget_In in Ed.
      apply in_map_iff. exists (c, a). auto. }
    apply in_map_iff in I. destruct I as (gr & <- & I). apply in_split in I.
    destruct I as (gs1 & gs2 & ->).
    destruct (RG_mid _ _ _ _ H) as (al1 & s & al2 & Ea & F1 & HR & F2 & N).
    rewrite Ea, dget_mid in Ed by auto. inversion Ed; subst a.
    destruct (fix_token s t) as [s' r] eqn:Ef. cbn [fst snd].
    destruct (R_fix _ _ _ _ _ HR Ef) as [(o1 & o2 & Eo & -> & HR')|(Nt & -> & ->)].
    + left. destruct gr as [c l [f o]]. cbn [gr_bag b_out b_fixed gr_code gr_limit] in *. subst o.
      exists gs1, l, f, o1, o2, gs2. do 2 (split; [auto|]).
      exact (RG_update _ _ _ _ _ _ _ _ _ H Ea F1 F2 HR' N).
    + right. split; [|split; [auto|]].
      * intros h I E. rewrite (RG_code_unique _ _ _ _ h H I E). exact Nt.
      * pose proof (RG_update _ _ _ _ _ _ _ _ _ H Ea F1 F2 HR N) as X. destruct gr; exact X.
  - right. split; [|split; [auto|exact H]].
    intros gr I E. exfalso. apply dget_None in Ed. apply Ed. destruct H as (F & _).
    rewrite (RA_codes _ _ F). apply in_map_iff. eauto.
Qed.

Lemma RG_map_sched g gs (fs : ssched -> ssched) (fb : bag -> bag) :
  (forall s b, R s b -> R (fs s) (fb b)) -> RG g gs ->
  RG (mkGS (map (fun kv => (fst kv, fs (snd kv))) (allocators g)) (limits g) (priorities g))
     (map (fun gr => mkGr (gr_code gr) (gr_limit gr) (fb (gr_bag gr))) gs).
Proof.
  intros Hf (F & L & P & ND). unfold RG. cbn [allocators limits priorities].
  rewrite map_length, !map_map. cbn [gr_code gr_limit]. repeat split; auto.
  clear - F Hf. induction F as [|x y al gs [H1 H2] F IH]; simpl; constructor; auto.
  split; simpl; auto.
Qed.

Lemma RG_rollback g gs : RG g gs ->
  RG (grollback g) (map (fun gr => mkGr (gr_code gr) (gr_limit gr) (mkB (b_fixed (gr_bag gr)) [])) gs).
Proof. apply (RG_map_sched g gs rollback (fun b => mkB (b_fixed b) [])). apply R_rollback. Qed.

Lemma RG_pickle g gs : RG g gs -> RG (gsched_setstate (gsched_getstate g)) gs.
Proof.
  intros H. unfold gsched_getstate, gsched_setstate. rewrite map_map. cbn [fst snd].
  pose proof (RG_map_sched g gs (fun s => sched_setstate (sched_getstate s)) (fun b => b) R_pickle H) as X.
  assert (map (fun gr => mkGr (gr_code gr) (gr_limit gr) (gr_bag gr)) gs = gs) as Y.
  { rewrite <- (map_id gs) at 2. apply map_ext. intros []; reflexivity. }
  cbv beta in X. rewrite Y in X. exact X.
Qed.

(** ** [set_groups] *)
Lemma combine_snoc {A B} (a : list A) (b : list B) x y : List.length a = List.length b ->
  combine (a ++ [x]) (b ++ [y]) = combine a b ++ [(x, y)].
Proof.
  revert b. induction a as [|u a IH]; intros [|v b]; simpl; intros E; try discriminate; auto.
  f_equal. apply IH. lia.
Qed.

Lemma dget_find al gs c : Forall2 RA al gs ->
  R (match dget c al with Some a => a | None => new_sched end) (find_bag c gs).
Proof.
  unfold find_bag. induction 1 as [|[c' s] gr al gs [E HR] F IH]; simpl; [apply R_init|].
  simpl in E, HR. subst c'. destruct (bytes_eqb c (gr_code gr)); auto.
Qed.

Lemma set_groups_correct old gs0 : Forall2 RA old gs0 -> forall specs g gs,
  RG g gs -> NoDup (map gr_code gs ++ map fst specs) ->
  RG (set_groups_loop old (List.length gs) specs g)
     (gs ++ map (fun s => mkGr (fst s) (snd s) (find_bag (fst s) gs0)) specs).
Proof.
  intros F0. induction specs as [|[c l] specs IH]; intros g gs H ND.
  - simpl. rewrite app_nil_r. exact H.
  - cbn [set_groups_loop map fst snd].
    set (a := match dget c old with Some a => a | None => new_sched end).
    set (gr := mkGr c l (find_bag c gs0)).
    assert (~ In c (map gr_code gs)) as N.
    { simpl in ND. apply NoDup_remove_2 in ND. intro C. apply ND. apply in_app_iff. auto. }
    replace (S (List.length gs)) with (List.length (gs ++ [gr])) by (rewrite app_length; simpl; lia).
    change (gs ++ gr :: map (fun s => mkGr (fst s) (snd s) (find_bag (fst s) gs0)) specs)
      with (gs ++ [gr] ++ map (fun s => mkGr (fst s) (snd s) (find_bag (fst s) gs0)) specs).
    rewrite app_assoc. apply IH.
    + destruct H as (F & L & P & ND').
      assert (map fst (allocators g) = map gr_code gs) as K1 by (apply RA_codes; auto).
      assert (map fst (limits g) = map gr_code gs) as K2 by (rewrite L, map_map; auto).
      assert (map fst (priorities g) = map gr_code gs) as K3.
      { rewrite P, combine_fst; auto. rewrite map_length, seq_length. auto. }
      unfold RG. cbn [allocators limits priorities].
      rewrite !dset_new by congruence. repeat split.
      * apply Forall2_app; auto. constructor; [|constructor]. split; [reflexivity|].
        simpl. apply dget_find. exact F0.
      * rewrite L, map_app. reflexivity.
      * rewrite P, map_app, app_length. simpl. rewrite Nat.add_1_r, seq_S.
        rewrite combine_snoc; [reflexivity|]. rewrite map_length, seq_length. auto.
      * rewrite map_app. simpl. apply Permutation_NoDup with (c :: map gr_code gs); [apply Permutation_cons_append|].
        constructor; auto.
    + rewrite map_app. simpl. rewrite <- app_assoc. exact ND.
Qed.

Lemma RG_init : RG new_gsched [].
Proof. repeat split; constructor. Qed.

Lemma RG_set_groups g gs specs : RG g gs -> NoDup (map fst specs) ->
  RG (set_groups g specs) (map (fun s => mkGr (fst s) (snd s) (find_bag (fst s) gs)) specs).
Proof.
  intros H ND. unfold set_groups.
  apply (set_groups_correct (allocators g) gs (proj1 H) specs (mkGS [] [] []) [] RG_init ND).
Qed.

(** ** Histories *)
Definition RGS (st : gsched * gstate) (ab : list group * list group) : Prop :=
  RG (fst st) (fst ab) /\ exists g, snd st = gsched_getstate g /\ RG g (snd ab).

Lemma RGS_step st ab e st' a : RGS st ab -> distinct_codes e -> gstep st e = (st', a) ->
  exists ab', gastep ab e a ab' /\ RGS st' ab'.
Proof.
  intros [H (gv & Ev & Hv)] D E. destruct st as [g v], ab as [gs vs]. cbn [fst snd] in *.
  destruct e as [|c t| | | |specs]; cbn [gstep] in E.
  - unfold gissue in E.
    destruct (gissue_correct g gs H) as
      [(gs1 & gr & gs2 & t & g' & -> & C & N & O & H')|(N & O)];
      rewrite (O _ (Permutation_refl _)) in E; injection E as <- <-.
    + eexists. split; [apply ga_issue; [exact C|exact N]|]. split; [exact H'|]. exists gv; auto.
    + eexists. split; [apply ga_none; exact N|]. split; [exact H|]. exists gv; auto.
  - destruct (gfix_correct g gs c t H) as
      [(gs1 & l & f & o1 & o2 & gs2 & -> & Er & H')|(N & Er & H')];
      destruct (gfix g c t) as [g' r]; cbn [fst snd] in *; subst r; injection E as <- <-.
    + eexists. split; [apply ga_fix|]. split; [exact H'|]. exists gv; auto.
    + eexists. split; [apply ga_fix_error; exact N|]. split; [exact H'|]. exists gv; auto.
  - injection E as <- <-. eexists. split; [constructor|]. split; [apply RG_rollback; exact H|]. exists gv; auto.
  - injection E as <- <-. eexists. split; [constructor|]. split; [exact H|]. exists g; auto.
  - injection E as <- <-. eexists. split; [constructor|]. split; [|exists gv; auto].
    cbn [fst]. rewrite Ev. apply RG_rollback. apply RG_pickle. exact Hv.
  - injection E as <- <-. eexists. split; [constructor|]. split; [|exists gv; auto].
    apply RG_set_groups; auto.
Qed.

Lemma RGS_run : forall es st ab st' os, RGS st ab -> Forall distinct_codes es ->
  grun st es = (st', os) -> exists ab', garun ab es os ab' /\ RGS st' ab'.
Proof.
  induction es as [|e es IH]; intros st ab st' os H D E; cbn [grun] in E.
  - injection E as <- <-. exists ab. split; [constructor|auto].
  - inversion D as [|? ? D1 D2]; subst.
    destruct (gstep st e) as [st1 a] eqn:Es. destruct (grun st1 es) as [st2 os2] eqn:Er.
    injection E as <- <-.
    destruct (RGS_step _ _ _ _ _ H D1 Es) as (ab1 & S1 & H1).
    destruct (IH _ _ _ _ H1 D2 Er) as (ab2 & S2 & H2).
    exists ab2. split; [|exact H2]. econstructor; eauto.
Qed.

Lemma RGS_init : RGS ginit ([], []).
Proof. split; [apply RG_init|]. exists new_gsched. split; [reflexivity|apply RG_init]. Qed.

Lemma C24_refines_proof es st os : Forall distinct_codes es -> grun ginit es = (st, os) ->
  exists gs v, garun ([], []) es os (gs, v) /\
    Forall (fun g => bag_ok (gr_bag g)) gs /\ NoDup (map gr_code gs).
Proof.
  intros D E. destruct (RGS_run _ _ _ _ _ RGS_init D E) as ([gs v] & A & [H _]).
  exists gs, v. split; [exact A|]. destruct H as (F & _ & _ & ND). split; auto.
  rewrite Forall_forall. intros gr I. destruct (RA_r _ _ F _ I) as (kv & _ & _ & HR).
  eapply R_bag_ok; eauto.
Qed.

Lemma C24_iteration_order_proof es g v os order : Forall distinct_codes es ->
  grun ginit es = ((g, v), os) -> Permutation order (allocators g) ->
  gissue_in_order g order = gissue g.
Proof.
  intros D E P. destruct (RGS_run _ _ _ _ _ RGS_init D E) as ([gs w] & A & [H _]).
  cbn [fst] in H. unfold gissue.
  destruct (gissue_correct g gs H) as
      [(gs1 & gr & gs2 & t & g' & -> & C & N & O & H')|(N & O)];
      rewrite !O; auto.
Qed.

(** ** The two predicates *)
Lemma nothing_issued_correct g gs : RG g gs ->
  nothing_issued_yet g = true <-> forall gr, In gr gs -> issued_count (gr_bag gr) = 0.
Proof.
  intros (F & _). unfold nothing_issued_yet. rewrite forallb_forall.
  split.
  - intros H gr I. destruct (RA_r _ _ F _ I) as (kv & I2 & _ & (_ & _ & <- & _)).
    apply Z.eqb_eq. auto.
  - intros H kv I. destruct (RA_l _ _ F _ I) as (gr & I2 & _ & (_ & _ & -> & _)).
    apply Z.eqb_eq. auto.
Qed.

Definition limit_fixed (gr : group) : Prop :=
  match gr_limit gr with None => True | Some l => fixed_count (gr_bag gr) >= l end.

Lemma all_fixed_suffix g : forall gs2 al gs1, RG g (gs1 ++ gs2) -> Forall2 RA al gs2 ->
  (all_fixed_loop g al = Ok true /\ (forall gr, In gr gs2 -> limit_fixed gr)) \/
  (all_fixed_loop g al = Ok false /\ exists gr, In gr gs2 /\ ~ limit_fixed gr).
Proof.
  induction gs2 as [|gr gs2 IH]; intros al gs1 H F; inversion F as [|[c s] ? al' ? [E HR] F']; subst.
  - left. split; [reflexivity|]. simpl; tauto.
  - simpl in E, HR. subst c. cbn [all_fixed_loop]. rewrite (RG_limit _ _ _ _ H).
    assert (RG g ((gs1 ++ [gr]) ++ gs2)) as H' by (rewrite <- app_assoc; exact H).
    destruct HR as (_ & _ & _ & Ef).
    destruct (gr_limit gr) as [l|] eqn:El.
    + rewrite Ef. rewrite Z.geb_leb. destruct (Z.leb_spec l (fixed_count (gr_bag gr))) as [L|L].
      * destruct (IH _ _ H' F') as [[X Y]|[X (h & I & Y)]].
        -- left. split; auto. intros h [<-|I]; auto. unfold limit_fixed. rewrite El. lia.
        -- right. split; auto. exists h. split; [right|]; auto.
      * right. split; auto. exists gr. split; [left; auto|]. unfold limit_fixed. rewrite El. lia.
    + destruct (IH _ _ H' F') as [[X Y]|[X (h & I & Y)]].
      * left. split; auto. intros h [<-|I]; auto. unfold limit_fixed. rewrite El. auto.
      * right. split; auto. exists h. split; [right|]; auto.
Qed.

Lemma all_fixed_correct g gs : RG g gs ->
  (all_fixed g = Ok true /\ (forall gr, In gr gs -> limit_fixed gr)) \/
  (all_fixed g = Ok false /\ exists gr, In gr gs /\ ~ limit_fixed gr).
Proof. intros H. apply (all_fixed_suffix g gs (allocators g) []); [exact H|apply H]. Qed.

(** ** Limits are respected *)
Definition within_limit (gr : group) : Prop :=
  match gr_limit gr with None => True | Some l => issued_count (gr_bag gr) <= Z.max 0 l end.

Definition no_set_groups (e : gevent) : Prop := match e with GSetGroups _ => False | _ => True end.

Lemma issued_count_fixed b : issued_count (mkB (b_fixed b) []) <= issued_count b.
Proof. unfold issued_count. cbn [b_fixed b_out List.length]. lia. Qed.

Lemma within_rollback gs : Forall within_limit gs ->
  Forall within_limit (map (fun g => mkGr (gr_code g) (gr_limit g) (mkB (b_fixed (gr_bag g)) [])) gs).
Proof.
  intros H. apply Forall_map. eapply Forall_impl; [|exact H]. intros gr. unfold within_limit.
  cbn [gr_limit gr_bag]. destruct (gr_limit gr); auto. pose proof (issued_count_fixed (gr_bag gr)). lia.
Qed.

Lemma garun_within : forall es ab os ab', garun ab es os ab' -> Forall no_set_groups es ->
  Forall within_limit (fst ab) -> Forall within_limit (snd ab) ->
  Forall within_limit (fst ab') /\ Forall within_limit (snd ab').
Proof.
  induction 1 as [|st e a st1 es os st2 S1 A IH]; intros N W V; auto.
  inversion N as [|? ? N1 N2]; subst. clear A N.
  assert (Forall within_limit (fst st1) /\ Forall within_limit (snd st1)) as [W1 V1]; [|auto].
  clear IH N2. destruct S1 as [gs1 g gs2 v t C Nt|gs v Nn|gs1 c l f o1 t o2 gs2 v|gs v c t Ne|gs v|gs v|gs v|gs v specs];
    cbn [fst snd] in *; split; auto.
  - rewrite Forall_app in *. destruct W as [Wa Wb]. split; auto. inversion Wb; subst. constructor; auto.
    destruct C as [B _]. unfold within_limit, below_limit in *. cbn [gr_limit gr_bag].
    destruct (gr_limit g); auto. unfold issued_count in *. cbn [b_fixed b_out List.length]. lia.
  - rewrite Forall_app in *. destruct W as [Wa Wb]. split; auto.
    inversion Wb as [|? ? W1 W2]; subst. constructor; auto.
    unfold within_limit in *. cbn [gr_limit gr_bag] in *. destruct l; auto.
    unfold issued_count in *. cbn [b_fixed b_out List.length] in *. rewrite !app_length in *.
    cbn [List.length] in *. lia.
  - apply within_rollback; auto.
  - apply within_rollback; auto.
  - destruct N1.
Qed.

Lemma C24_limits_proof specs es st os : NoDup (map fst specs) -> Forall no_set_groups es ->
  grun ginit (GSetGroups specs :: GSave :: es) = (st, os) ->
  exists gs v, garun ([], []) (GSetGroups specs :: GSave :: es) os (gs, v) /\
    forall gr l, In gr gs -> gr_limit gr = Some l -> issued_count (gr_bag gr) <= Z.max 0 l.
Proof.
  intros ND N E.
  assert (Forall distinct_codes (GSetGroups specs :: GSave :: es)) as D.
  { constructor; [exact ND|]. constructor; [exact I|]. eapply Forall_impl; [|exact N].
    intros [| | | | |]; simpl; tauto. }
  destruct (RGS_run _ _ _ _ _ RGS_init D E) as ([gs v] & A & _).
  exists gs, v. split; [exact A|].
  inversion A as [|? ? a1 st1 ? os1 ? S1 A1]; subst.
  inversion A1 as [|? ? a2 st2 ? os2 ? S2 A2]; subst.
  assert (Forall within_limit (fst st1)) as W1.
  { inversion S1; subst. cbn [fst]. apply Forall_map. rewrite Forall_forall. intros [c l] _.
    unfold within_limit, find_bag. simpl. destruct l; auto. unfold issued_count. simpl. lia. }
  assert (Forall within_limit (fst st2) /\ Forall within_limit (snd st2)) as [W2 V2].
  { inversion S2; subst. auto. }
  destruct (garun_within _ _ _ _ A2 N W2 V2) as [W _]. cbn [fst] in W.
  intros gr l I El. rewrite Forall_forall in W. apply W in I. unfold within_limit in I.
  rewrite El in I. exact I.
Qed.

Lemma C24_all_fixed_proof es g v os : Forall distinct_codes es -> grun ginit es = ((g, v), os) ->
  exists gs w, garun ([], []) es os (gs, w) /\
    ((all_fixed g = Ok true /\ (forall gr l, In gr gs -> gr_limit gr = Some l -> l <= fixed_count (gr_bag gr))) \/
     (all_fixed g = Ok false /\ (exists gr l, In gr gs /\ gr_limit gr = Some l /\ fixed_count (gr_bag gr) < l))) /\
    (nothing_issued_yet g = true <-> forall gr, In gr gs -> issued_count (gr_bag gr) = 0).
Proof.
  intros D E. destruct (RGS_run _ _ _ _ _ RGS_init D E) as ([gs w] & A & [H _]).
  exists gs, w. split; [exact A|]. cbn [fst] in H. split; [|apply nothing_issued_correct; exact H].
  destruct (all_fixed_correct g gs H) as [[X Y]|[X (gr & I & Y)]].
  - left. split; auto. intros gr l I El. apply Y in I. unfold limit_fixed in I. rewrite El in I. lia.
  - right. split; auto. unfold limit_fixed in Y. destruct (gr_limit gr) as [l|] eqn:El; [|tauto].
    exists gr, l. repeat split; auto. lia.
Qed.
