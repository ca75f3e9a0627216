(** Proofs about tournaments (C25). *)
From Coq Require Import Permutation.
From Verif Require Import Base Bytes PyStr Dict CommonModel SchedModel SchedSpec SchedProofs GroupProofs
  SgfPropsProofs GameplayModel TournModel TournSpec.

Lemma bmem_spec x l : reflect (In x l) (bmem x l).
Proof.
  unfold bmem. destruct (existsb (bytes_eqb x) l) eqn:E; constructor.
  - apply existsb_exists in E. destruct E as (y & H & E). destruct (bytes_eqb_spec x y); [subst; exact H|discriminate].
  - intros H. assert (existsb (bytes_eqb x) l = true); [|congruence]. apply existsb_exists. exists x. split; [exact H|apply bytes_eqb_refl].
Qed.

Lemma of_matchup_app id a b : of_matchup id (a ++ b) = of_matchup id a ++ of_matchup id b.
Proof. unfold of_matchup. rewrite filter_app, map_app. reflexivity. Qed.

Lemma of_matchup_same id n l : of_matchup id ((id, n) :: l) = n :: of_matchup id l.
Proof. unfold of_matchup. cbn [filter fst]. rewrite bytes_eqb_refl. reflexivity. Qed.

Lemma of_matchup_other id id' n l : id' <> id -> of_matchup id ((id', n) :: l) = of_matchup id l.
Proof. intros N. unfold of_matchup. cbn [filter fst]. destruct (bytes_eqb_spec id' id); [contradiction|reflexivity]. Qed.

Lemma of_matchup_In id n l : In n (of_matchup id l) <-> In (id, n) l.
Proof.
  unfold of_matchup. rewrite in_map_iff. split.
  - intros ([i k] & E & H). apply filter_In in H. destruct H as [H B]. cbn [fst snd] in *.
    destruct (bytes_eqb_spec i id); [subst; exact H|discriminate].
  - intros H. exists (id, n). split; [reflexivity|]. apply filter_In. split; [exact H|apply bytes_eqb_refl].
Qed.

Lemma results_of_app id a b : results_of id (a ++ b) = results_of id a ++ results_of id b.
Proof. unfold results_of. rewrite filter_app, map_app. reflexivity. Qed.

Lemma results_of_length id l : List.length (results_of id l) = List.length (of_matchup id (map fst l)).
Proof.
  induction l as [|[[i n] r] l IH]; [reflexivity|]. cbn [map fst]. unfold results_of, of_matchup in *. cbn [filter fst].
  destruct (bytes_eqb i id); cbn [map List.length]; congruence.
Qed.

(** The scheduler's group for a matchup. *)
Definition bag_of (done : list (game * game_result)) (out : list game) (id : bytes) : bag :=
  mkB (rev (of_matchup id (map fst done))) (of_matchup id out).
Definition grp (done : list (game * game_result)) (out : list game) (s : bytes * option Z) : group :=
  mkGr (fst s) (snd s) (bag_of done out (fst s)).

(** The table of results. *)
Definition lookup (d : dict (list game_result)) (id : bytes) : list game_result :=
  match dget id d with Some l => l | None => [] end.
Definition table_ok (d : dict (list game_result)) (done : list (game * game_result)) (listed : list bytes) : Prop :=
  NoDup (map fst d) /\ (forall id, In id (map fst d) <-> In id listed) /\ (forall id, lookup d id = results_of id done).

Lemma table_listed d done listed id : table_ok d done listed -> results_of id done <> [] -> In id listed.
Proof.
  intros (_ & L & E) H. rewrite <- (E id) in H. unfold lookup in H. destruct (dget id d) eqn:D; [|congruence].
  apply L. apply dget_In in D. apply (in_map fst) in D. exact D.
Qed.

Definition specs_of (t : tourn) : list (bytes * option Z) := group_specs (cf_matchups (t_config t)) (t_ghosts t).

Definition Inv (t : tourn) (a : astate) : Prop :=
  t_config t = a_config a /\ config_ok (a_config a) /\
  table_ok (t_results t) (a_done a) (a_listed a) /\
  NoDup (map fst (specs_of t)) /\
  RG (t_sched t) (map (grp (a_done a) (a_out a)) (specs_of t)) /\
  (forall id n r, In (id, n, r) (a_done a) -> In id (map fst (specs_of t))) /\
  (forall id n, In (id, n) (a_out a) -> In id (map m_id (cf_matchups (a_config a)))) /\
  t_working t = a_worked a /\ t_prob t = a_failing a /\
  (forall g r, In (g, r) (a_done a) -> pickles r).

Definition SInv (s : tstatus) (v : asaved) : Prop :=
  exists d, ts_results s = map (fun kv => (fst kv, map game_result_getstate (snd kv))) d /\
  table_ok d (sv_done v) (sv_listed v) /\
  (exists g gs, ts_sched s = gsched_getstate g /\ RG g gs /\
     forall id, b_fixed (find_bag id gs) = rev (of_matchup id (map fst (sv_done v)))) /\
  ts_competitors s = sv_competitors v /\
  (forall g r, In (g, r) (sv_done v) -> pickles r).

Definition SysInv (s : tsys) (x : asys) : Prop :=
  match fst s, fst x with
  | Some t, Some a => Inv t a
  | None, None => True
  | _, _ => False
  end /\
  match snd s, snd x with
  | Some st, Some v => SInv st v
  | None, None => True
  | _, _ => False
  end.

(** ** Splitting *)
Lemma NoDup_split {A} (x : A) a b c d : NoDup (a ++ x :: b) -> a ++ x :: b = c ++ x :: d -> a = c /\ b = d.
Proof.
  revert c. induction a as [|y a IH]; intros [|z c] ND E; cbn [app] in *.
  - split; [reflexivity|congruence].
  - exfalso. assert (b = c ++ x :: d) as -> by congruence. inversion ND as [|? ? N _]; subst. apply N. apply in_or_app. right. left. reflexivity.
  - exfalso. assert (y = x) as -> by congruence. inversion ND as [|? ? N _]; subst. apply N. apply in_or_app. right. left. reflexivity.
  - assert (y = z) as -> by congruence. inversion ND as [|? ? _ ND']; subst. destruct (IH c ND' ltac:(congruence)) as [-> ->]. auto.
Qed.

Lemma app_split {A} (l g a : list A) x b : l ++ g = a ++ x :: b ->
  (exists l2, l = a ++ x :: l2 /\ b = l2 ++ g) \/ In x g.
Proof.
  revert a. induction l as [|y l IH]; intros a E; cbn [app] in E.
  - right. rewrite E. apply in_or_app. right. left. reflexivity.
  - destruct a as [|z a]; cbn [app] in E.
    + left. exists l. assert (y = x) as -> by congruence. split; [reflexivity|congruence].
    + assert (y = z) as -> by congruence. destruct (IH a ltac:(congruence)) as [(l2 & -> & ->)|X]; [|auto].
      left. exists l2. auto.
Qed.

Lemma map_split {A B} (f : A -> B) l x y z : map f l = x ++ y :: z ->
  exists a b c, l = a ++ b :: c /\ x = map f a /\ y = f b /\ z = map f c.
Proof.
  revert x. induction l as [|u l IH]; intros [|v x] E; cbn [map app] in E; try discriminate.
  - injection E as <- <-. exists [], u, l. auto.
  - injection E as <- E. destruct (IH _ E) as (a & b & c & -> & -> & -> & ->). exists (u :: a), b, c. auto.
Qed.

Lemma grp_code done out l : map gr_code (map (grp done out) l) = map fst l.
Proof. rewrite map_map. reflexivity. Qed.

Lemma issued_load a id : issued_count (bag_of (a_done a) (a_out a) id) = load a id.
Proof. unfold issued_count, load, in_hand, bag_of. cbn [b_fixed b_out]. rewrite app_length, rev_length. lia. Qed.

Lemma taken_hand a id n : taken (bag_of (a_done a) (a_out a) id) n <-> In n (in_hand a id).
Proof. unfold taken, in_hand, bag_of. cbn [b_fixed b_out]. rewrite in_app_iff, <- in_rev. tauto. Qed.

Lemma below_open a m : below_limit (grp (a_done a) (a_out a) (m_id m, m_games m)) <-> open_ a m.
Proof. unfold below_limit, open_, grp. cbn [gr_limit gr_bag fst snd]. destruct (m_games m); [|tauto]. rewrite issued_load. tauto. Qed.

Lemma ghost_closed a id : ~ below_limit (grp (a_done a) (a_out a) (id, Some 0)).
Proof. unfold below_limit, grp. cbn [gr_limit gr_bag fst snd]. rewrite issued_load. unfold load. lia. Qed.

Lemma dget_matchup ms m : NoDup (map m_id ms) -> In m ms -> dget (m_id m) (map (fun m => (m_id m, m)) ms) = Some m.
Proof.
  intros ND I. apply In_dget.
  - rewrite map_map. exact ND.
  - apply in_map_iff. eauto.
Qed.

Lemma make_job_of m n : job_of m n (make_job m n).
Proof.
  unfold job_of, make_job. destruct (m_alternating m && Nat.odd n); cbn; repeat split.
Qed.

Lemma grp_out_add done out id n l : ~ In id (map fst l) ->
  map (grp done ((id, n) :: out)) l = map (grp done out) l.
Proof.
  intros N. apply map_ext_in. intros [c lim] I. unfold grp, bag_of. cbn [fst snd]. rewrite of_matchup_other; [reflexivity|].
  intros ->. apply N. apply in_map_iff. exists (c, lim). auto.
Qed.

Lemma get_step t a sv v : Inv t a -> SysInv (Some t, sv) (Some a, v) ->
  exists x, atstep (Some a, v) TGet (snd (trun_step (Some t, sv) TGet)) x /\ SysInv (fst (trun_step (Some t, sv) TGet)) x.
Proof.
  intros I (_ & SV). cbn [fst snd] in SV. pose proof I as (C & CO & TB & ND & HG & D & O & W & P & PK).
  unfold trun_step, get_game, gissue.
  destruct (gissue_correct _ _ HG) as [(gs1 & gr & gs2 & n & g' & E & Ch & Nx & Ei & HG')|(N & Ei)].
  - rewrite (Ei _ (Permutation_refl _)).
    destruct (map_split _ _ _ _ _ E) as (s1 & s & s2 & Es & -> & -> & ->).
    assert (exists ms1 m ms2, cf_matchups (a_config a) = ms1 ++ m :: ms2 /\
       s1 = map (fun m => (m_id m, m_games m)) ms1 /\ s = (m_id m, m_games m) /\
       s2 = map (fun m => (m_id m, m_games m)) ms2 ++ map (fun g => (fst g, Some 0)) (t_ghosts t)) as (ms1 & m & ms2 & Em & -> & -> & ->).
    { destruct Ch as [B _]. unfold specs_of, group_specs in Es. rewrite C in Es.
      destruct (app_split _ _ _ _ _ Es) as [(l2 & El & ->)|X].
      - destruct (map_split _ _ _ _ _ El) as (ms1 & m & ms2 & Em & -> & -> & ->). exists ms1, m, ms2. auto.
      - exfalso. apply in_map_iff in X. destruct X as (gh & <- & _). exact (ghost_closed a (fst gh) B). }
    assert (In m (cf_matchups (a_config a))) as Im by (rewrite Em; apply in_or_app; right; left; reflexivity).
    unfold find_matchup. rewrite C. cbn [grp gr_code fst].
    rewrite (dget_matchup _ m (proj1 CO) Im).
    destruct (make_job_of m n) as (J1 & J2 & J3 & J4).
    assert (bmem (j_player_b (make_job m n)) (cf_players (a_config a)) && bmem (j_player_w (make_job m n)) (cf_players (a_config a)) = true) as ->.
    { destruct (proj2 CO m Im) as [K1 K2].
      destruct (m_alternating m && Nat.odd n); destruct J3 as [-> ->]; destruct (bmem_spec (m_player_1 m) (cf_players (a_config a)));
        destruct (bmem_spec (m_player_2 m) (cf_players (a_config a))); try contradiction; reflexivity. }
    cbn [fst snd].
    exists (Some (mkA (a_config a) (a_done a) ((m_id m, n) :: a_out a) (a_worked a) (a_failing a) (a_listed a)), v). split.
    + destruct Ch as (B & B1 & B2). destruct Nx as [N1 N2]. cbn [grp gr_bag fst] in N1, N2, B1, B2.
      eapply at_get with (ms1 := ms1) (ms2 := ms2); auto.
      * apply below_open. exact B.
      * intros m' I' O'. specialize (B1 (grp (a_done a) (a_out a) (m_id m', m_games m'))). cbn [grp gr_bag fst] in B1.
        rewrite !issued_load in B1. apply B1; [apply in_map_iff; exists (m_id m', m_games m'); split; [reflexivity|]; apply in_map_iff; eauto|].
        apply below_open. exact O'.
      * intros m' I' O'. specialize (B2 (grp (a_done a) (a_out a) (m_id m', m_games m'))). cbn [grp gr_bag fst] in B2.
        rewrite !issued_load in B2. apply B2; [|apply below_open; exact O'].
        apply in_map_iff. exists (m_id m', m_games m'). split; [reflexivity|]. apply in_or_app. left. apply in_map_iff. eauto.
      * rewrite <- taken_hand. exact N1.
      * intros k Hk. apply taken_hand. apply N2. exact Hk.
      * apply make_job_of.
    + split; [|exact SV]. cbn [fst].
      assert (NoDup (map fst (map (fun m => (m_id m, m_games m)) ms1) ++ m_id m :: map fst (map (fun m => (m_id m, m_games m)) ms2 ++ map (fun g => (fst g, Some 0)) (t_ghosts t)))) as ND2.
      { rewrite Es in ND. rewrite map_app in ND. exact ND. }
      apply NoDup_remove_2 in ND2. 
      split; [exact C|]. split; [exact CO|]. split; [exact TB|]. split; [exact ND|]. split; [|split; [exact D|split; [|auto]]].
      * change (specs_of (with_sched t g')) with (specs_of t). cbn [t_sched with_sched a_done a_out].
        replace (map (grp (a_done a) ((m_id m, n) :: a_out a)) (specs_of t)) with
          (map (grp (a_done a) (a_out a)) (map (fun m => (m_id m, m_games m)) ms1) ++
           mkGr (m_id m) (m_games m) (mkB (b_fixed (bag_of (a_done a) (a_out a) (m_id m))) (n :: b_out (bag_of (a_done a) (a_out a) (m_id m)))) ::
           map (grp (a_done a) (a_out a)) (map (fun m => (m_id m, m_games m)) ms2 ++ map (fun g => (fst g, Some 0)) (t_ghosts t)));
          [exact HG'|].
        rewrite Es.
        rewrite (map_app (grp (a_done a) ((m_id m, n) :: a_out a)) _ (_ :: _)).
        cbn [map].
        rewrite (grp_out_add (a_done a) (a_out a) (m_id m) n (map (fun m => (m_id m, m_games m)) ms1))
          by (intros X; apply ND2; apply in_or_app; auto).
        rewrite (grp_out_add (a_done a) (a_out a) (m_id m) n (map (fun m => (m_id m, m_games m)) ms2 ++ _))
          by (intros X; apply ND2; apply in_or_app; auto).
        f_equal. f_equal. unfold grp, bag_of. cbn [fst snd b_fixed b_out]. rewrite of_matchup_same. reflexivity.
      * cbn [a_out a_config]. intros id k [X|X]; [|eapply O; exact X]. injection X as <- <-. apply in_map. exact Im.
  - rewrite (Ei _ (Permutation_refl _)). cbn [fst snd]. exists (Some a, v). split.
    + apply at_none. intros m Im X. apply below_open in X. eapply N; [|exact X]. apply in_map.
      unfold specs_of, group_specs. rewrite C. apply in_or_app. left. apply in_map_iff. eauto.
    + split; [|exact SV]. cbn [fst]. destruct t; exact I.
Qed.

Lemma filter_split {A} (f : A -> bool) l x y z : filter f l = x ++ y :: z ->
  exists a b, l = a ++ y :: b /\ filter f a = x /\ filter f b = z /\ f y = true.
Proof.
  revert x. induction l as [|u l IH]; intros x E; cbn [filter] in E; [destruct x; discriminate|].
  destruct (f u) eqn:F.
  - destruct x as [|v x]; cbn [app] in E.
    + injection E as <- <-. exists [], l. auto.
    + injection E as <- E. destruct (IH _ E) as (a & b & -> & A1 & A2 & A3). exists (u :: a), b. cbn [app filter]. rewrite F, A1. auto.
  - destruct (IH _ E) as (a & b & -> & A1 & A2 & A3). exists (u :: a), b. cbn [app filter]. rewrite F. auto.
Qed.

Lemma of_matchup_split id out o1 n o2 : of_matchup id out = o1 ++ n :: o2 ->
  exists p1 p2, out = p1 ++ (id, n) :: p2 /\ o1 = of_matchup id p1 /\ o2 = of_matchup id p2.
Proof.
  intros E. unfold of_matchup in E. destruct (map_split _ _ _ _ _ E) as (a & [i k] & c & E2 & -> & -> & ->).
  destruct (filter_split _ _ _ _ _ E2) as (p1 & p2 & -> & <- & <- & B). cbn [fst snd] in *.
  destruct (bytes_eqb_spec i id); [subst i|discriminate]. exists p1, p2. auto.
Qed.

Lemma note_engines_eq l : forall t, exists names descs, note_engines l t =
  mkT (t_config t) (t_results t) (t_sched t) names descs (t_working t) (t_prob t) (t_ghosts t).
Proof.
  induction l as [|e l IH]; intros t; [exists (t_names t), (t_descs t); destruct t; reflexivity|].
  unfold note_engines in *. cbn [fold_left]. destruct (IH (mkT (t_config t) (t_results t) (t_sched t)
        (dset (fst e) (or_text (fst (snd e)) "[no name available]") (t_names t))
        (dset (fst e) (or_text (snd (snd e)) "[no description available]") (t_descs t))
        (t_working t) (t_prob t) (t_ghosts t))) as (a & b & ->). cbn. eauto.
Qed.

Lemma add_to_In x y l : In y (add_to x l) <-> y = x \/ In y l.
Proof.
  unfold add_to. destruct (bmem_spec x l); [split; [auto|intros [D|D]; subst; auto]|]. cbn [In]. intuition congruence.
Qed.

Lemma lookup_dset d k v k2 : lookup (dset k v d) k2 = if bytes_eqb k2 k then v else lookup d k2.
Proof. unfold lookup. rewrite dget_dset. destruct (bytes_eqb k2 k); reflexivity. Qed.

Lemma results_of_one id id2 n (r : game_result) : results_of id2 [((id, n), r)] = if bytes_eqb id2 id then [r] else [].
Proof.
  unfold results_of. cbn [filter fst]. destruct (bytes_eqb_spec id id2), (bytes_eqb_spec id2 id); subst; try congruence; reflexivity.
Qed.

Lemma table_add d done listed id n r : table_ok d done listed ->
  table_ok (dset id (lookup d id ++ [r]) d) (done ++ [((id, n), r)]) (add_to id listed).
Proof.
  intros (A & B & C). split; [apply dset_NoDup; exact A|]. split.
  - intros x. rewrite dset_keys, add_to_In, B. tauto.
  - intros x. rewrite lookup_dset, results_of_app, results_of_one, <- !C. destruct (bytes_eqb_spec x id); [subst; reflexivity|].
    rewrite app_nil_r. reflexivity.
Qed.

Lemma grp_done_other done o1 o2 id n r l : ~ In id (map fst l) ->
  map (grp (done ++ [((id, n), r)]) (o1 ++ o2)) l = map (grp done (o1 ++ (id, n) :: o2)) l.
Proof.
  intros N. apply map_ext_in. intros [c lim] I. unfold grp, bag_of. cbn [fst snd].
  assert (id <> c) as NC by (intros ->; apply N; apply (in_map fst) in I; exact I).
  rewrite map_app, !of_matchup_app, of_matchup_other by exact NC. cbn [map fst]. rewrite of_matchup_other by exact NC.
  cbn [of_matchup filter map]. rewrite app_nil_r. reflexivity.
Qed.

Lemma grp_done_same done o1 o2 id n r lim :
  grp (done ++ [((id, n), r)]) (o1 ++ o2) (id, lim) =
  mkGr id lim (mkB (n :: rev (of_matchup id (map fst done))) (of_matchup id o1 ++ of_matchup id o2)).
Proof.
  unfold grp, bag_of. cbn [fst snd]. rewrite map_app, !of_matchup_app. cbn [map fst]. rewrite of_matchup_same. cbn [of_matchup filter map].
  rewrite rev_app_distr. reflexivity.
Qed.

Definition step_ok (s : tsys) (e : tevent) (x : asys) : Prop :=
  exists y, atstep x e (snd (trun_step s e)) y /\ SysInv (fst (trun_step s e)) y.

Lemma result_step t a sv v r : pickles (rs_result r) -> SysInv (Some t, sv) (Some a, v) -> step_ok (Some t, sv) (TResult r) (Some a, v).
Proof.
  intros PR (I & SV). unfold step_ok. cbn [fst snd] in SV, I. destruct I as (C & CO & TB & ND & HG & D & O & W & P & PK).
  unfold trun_step, process_game_result. destruct (note_engines_eq (rs_engines r) t) as (nm & ds & ->).
  cbn [t_config t_results t_sched t_names t_descs t_working t_prob t_ghosts]. destruct (rs_data r) as [id n] eqn:ED.
  destruct (gfix_correct _ _ id n HG) as [(gs1 & l & f & o1 & o2 & gs2 & E & EF & HG')|(N & EF & HG')].
  - destruct (gfix (t_sched t) id n) as [g' rr]. cbn [fst snd] in EF, HG'. subst rr. cbn [fst snd].
    destruct (map_split _ _ _ _ _ E) as (s1 & [id' lim] & s2 & Es & -> & Eg & ->).
    unfold grp, bag_of in Eg. cbn [fst snd] in Eg. injection Eg as Ei El Ef Eo. subst id' l. symmetry in Eo.
    destruct (of_matchup_split _ _ _ _ _ Eo) as (p1 & p2 & Eout & -> & ->).
    exists (Some (mkA (a_config a) (a_done a ++ [((id, n), rs_result r)]) (p1 ++ p2)
                 (add_to id (a_worked a)) (take_from id (a_failing a)) (add_to id (a_listed a))), v). split.
    { apply at_result; auto. }
    split; [|exact SV]. cbn [fst].
    assert (NoDup (map fst s1 ++ id :: map fst s2)) as ND2 by (rewrite Es, map_app in ND; exact ND).
    apply NoDup_remove_2 in ND2. rewrite in_app_iff in ND2.
    split; [exact C|]. split; [exact CO|]. split; [apply table_add; exact TB|]. split; [exact ND|].
    split; [|split; [|split; [|split; [|split]]]]; cbn [a_done a_out a_config a_worked a_failing t_working t_prob t_sched].
    + change (specs_of (mkT _ _ _ _ _ _ _ _)) with (specs_of t). rewrite Es.
      rewrite (map_app _ s1 (_ :: s2)). cbn [map]. rewrite !grp_done_other by tauto. rewrite grp_done_same.
      rewrite Eout, Ef in HG'. exact HG'.
    + change (specs_of (mkT _ _ _ _ _ _ _ _)) with (specs_of t). intros i k q X. apply in_app_or in X. destruct X as [X|[X|[]]]; [eapply D; exact X|].
      injection X as <- <- <-. rewrite Es, map_app. apply in_or_app. right. left. reflexivity.
    + intros i k X. apply (O i k). rewrite Eout. apply in_app_or in X. apply in_or_app. destruct X; [auto|right; right; auto].
    + rewrite W. reflexivity.
    + rewrite P. reflexivity.
    + intros g q X. apply in_app_or in X. destruct X as [X|[X|[]]]; [eapply PK; exact X|]. injection X as <- <-. exact PR.
  - destruct (gfix (t_sched t) id n) as [g' rr]. cbn [fst snd] in EF, HG'. subst rr. cbn [fst snd].
    exists (Some (mkA (a_config a) (a_done a) (a_out a) (add_to id (a_worked a)) (take_from id (a_failing a)) (a_listed a)), v). split.
    { apply at_bad_result with n; [exact ED|]. intros X.
      assert (In id (map m_id (cf_matchups (a_config a)))) as Y by (eapply O; exact X).
      apply in_map_iff in Y. destruct Y as (m & Em & Im).
      apply (N (grp (a_done a) (a_out a) (m_id m, m_games m))).
      - apply in_map. unfold specs_of, group_specs. rewrite C. apply in_or_app. left. apply in_map_iff. exists m. auto.
      - exact Em.
      - unfold grp, bag_of. cbn [fst gr_bag b_out]. apply of_matchup_In. rewrite Em. exact X. }
    split; [|exact SV]. cbn [fst].
    split; [exact C|]. split; [exact CO|]. split; [exact TB|]. split; [exact ND|]. split; [exact HG'|]. split; [exact D|]. split; [exact O|].
    cbn [with_sched t_working t_prob a_worked a_failing]. rewrite W, P. split; [reflexivity|]. split; [reflexivity|]. exact PK.
Qed.

Lemma error_step t a sv v j : SysInv (Some t, sv) (Some a, v) -> step_ok (Some t, sv) (TError j) (Some a, v).
Proof.
  intros (I & SV). unfold step_ok. cbn [fst snd] in SV, I. pose proof I as (C & CO & TB & ND & HG & D & O & W & P & PK).
  unfold trun_step, process_game_error. destruct (j_data j) as [id n] eqn:ED. cbn [fst]. rewrite W, P.
  destruct (negb (bmem id (a_worked a)) || bmem id (a_failing a)) eqn:B; cbn [fst snd].
  - exists (Some a, v). split; [|split; [exact I|exact SV]]. eapply at_stop; [exact ED|].
    destruct (bmem_spec id (a_worked a)), (bmem_spec id (a_failing a)); cbn in B; try discriminate; auto.
  - eexists. split; [eapply at_retry; [exact ED| |]|].
    + destruct (bmem_spec id (a_worked a)); [assumption|discriminate].
    + destruct (bmem_spec id (a_failing a)); [|assumption]. rewrite orb_true_r in B. discriminate.
    + split; [|exact SV]. cbn [fst]. do 7 (split; [assumption|]). cbn [t_working t_prob a_worked a_failing]. rewrite ?W, ?P. auto.
Qed.

Lemma touch_ok id d done listed : table_ok d done listed -> table_ok (touch id d) done (add_to id listed).
Proof.
  intros (A & B & C). unfold touch. destruct (dget id d) eqn:E.
  - split; [exact A|]. split; [|exact C]. intros x. rewrite add_to_In, B. split; [auto|]. intros [D|D]; [subst x|exact D].
    apply B. apply dget_In in E. apply (in_map fst) in E. exact E.
  - split; [apply dset_NoDup; exact A|]. split.
    + intros x. rewrite dset_keys, add_to_In, B. tauto.
    + intros x. rewrite lookup_dset. rewrite <- C. destruct (bytes_eqb_spec x id); [subst|reflexivity]. unfold lookup. rewrite E. reflexivity.
Qed.

Lemma table_same d done l1 l2 : (forall x, In x l1 <-> In x l2) -> table_ok d done l1 -> table_ok d done l2.
Proof. intros H (A & B & C). split; [exact A|]. split; [|exact C]. intros x. rewrite B. apply H. Qed.

Lemma touch_all_ok ms : forall d done listed, table_ok d done listed ->
  table_ok (touch_all ms d) done (fold_left (fun l m => add_to (m_id m) l) ms listed).
Proof.
  induction ms as [|m ms IH]; intros d done listed H; [exact H|]. unfold touch_all in *. cbn [fold_left]. apply IH. apply touch_ok. exact H.
Qed.

Lemma fold_add_In ms : forall listed x, In x (fold_left (fun l m => add_to (m_id m) l) ms listed) <-> In x listed \/ In x (map m_id ms).
Proof.
  induction ms as [|m ms IH]; intros listed x; cbn [fold_left map In]; [tauto|]. rewrite IH, add_to_In. intuition congruence.
Qed.

Lemma report_step t a sv v : SysInv (Some t, sv) (Some a, v) -> step_ok (Some t, sv) TReport (Some a, v).
Proof.
  intros (I & SV). unfold step_ok. cbn [fst snd] in SV, I. pose proof I as (C & CO & TB & ND & HG & D & O & W & P & PK).
  eexists. split; [apply at_report with (listed := fold_left (fun l m => add_to (m_id m) l) (cf_matchups (a_config a)) (a_listed a))|].
  - intros x. apply fold_add_In.
  - split; [|exact SV]. cbn [trun_step fst]. split; [exact C|]. split; [exact CO|]. split.
    + cbn [write_report t_results a_done a_listed]. rewrite C. apply touch_all_ok. exact TB.
    + split; [exact ND|]. split; [exact HG|]. auto 10.
Qed.

Lemma save_step t a sv v : SysInv (Some t, sv) (Some a, v) -> step_ok (Some t, sv) TSave (Some a, v).
Proof.
  intros (I & SV). unfold step_ok. cbn [fst snd] in SV, I. pose proof I as (C & CO & TB & ND & HG & D & O & W & P & PK).
  eexists. split; [apply at_save|]. cbn [trun_step fst snd]. split; [exact I|]. cbn [fst snd].
  exists (t_results t). split; [reflexivity|]. cbn [sv_done sv_listed sv_competitors]. split; [exact TB|]. split.
  - exists (t_sched t), (map (grp (a_done a) (a_out a)) (specs_of t)). split; [reflexivity|]. split; [exact HG|].
    intros id. unfold find_bag. destruct (List.find _ _) as [g|] eqn:F.
    + apply List.find_some in F. destruct F as [F B]. destruct (bytes_eqb_spec id (gr_code g)); [subst id|discriminate].
      apply in_map_iff in F. destruct F as (s & <- & _). reflexivity.
    + cbn [empty_bag b_fixed]. destruct (of_matchup id (map fst (a_done a))) as [|n l] eqn:E; [reflexivity|]. exfalso.
      assert (In n (of_matchup id (map fst (a_done a)))) as X by (rewrite E; left; reflexivity).
      apply of_matchup_In in X. apply in_map_iff in X. destruct X as ([g r] & Eg & X). cbn [fst] in Eg. subst g.
      apply D in X. apply in_map_iff in X. destruct X as (s & Es & X).
      pose proof (List.find_none _ _ F (grp (a_done a) (a_out a) s) (in_map _ _ _ X)) as Y. cbn [grp gr_code] in Y.
      rewrite Es, bytes_eqb_refl in Y. discriminate.
  - split; [cbn [get_status ts_competitors]; rewrite C; reflexivity|exact PK].
Qed.

(** ** Loading the status *)
Lemma sort2_swap a b : sort2 a b = sort2 b a.
Proof.
  unfold sort2. destruct (bytes_ltb b a) eqn:E1, (bytes_ltb a b) eqn:E2; auto.
  - pose proof (bytes_ltb_trans _ _ _ E1 E2) as X. rewrite bytes_ltb_irrefl in X. discriminate.
  - destruct (bytes_ltb_total _ _ E1) as [X|X]; [congruence|subst; reflexivity].
Qed.

Lemma sort2_spec a b c d : sort2 a b = sort2 c d <-> (a = c /\ b = d) \/ (a = d /\ b = c).
Proof.
  split.
  - unfold sort2. destruct (bytes_ltb b a), (bytes_ltb d c); intros E; injection E; auto.
  - intros [[-> ->]|[-> ->]]; [reflexivity|apply sort2_swap].
Qed.

Lemma lookup_touch id d x : lookup (touch id d) x = lookup d x.
Proof.
  unfold touch. destruct (dget id d) eqn:E; [reflexivity|]. rewrite lookup_dset. destruct (bytes_eqb_spec x id); [subst|reflexivity].
  unfold lookup. rewrite E. reflexivity.
Qed.

Definition first_ok (d : dict (list game_result)) (m : matchup) : Prop :=
  forall r rest, lookup d (m_id m) = r :: rest -> same_players r m.

Lemma check_results_spec ms : forall d,
  (Forall (first_ok d) ms /\ check_results ms d = Ok (touch_all ms d)) \/
  (~ Forall (first_ok d) ms /\ exists e, check_results ms d = Err e).
Proof.
  induction ms as [|m ms IH]; intros d; [left; split; [constructor|reflexivity]|].
  cbn [check_results]. unfold touch_all. cbn [fold_left]. fold (touch_all ms (touch (m_id m) d)).
  assert (forall x, first_ok (touch (m_id m) d) x <-> first_ok d x) as F.
  { intros x. unfold first_ok. rewrite lookup_touch. tauto. }
  assert (Forall (first_ok (touch (m_id m) d)) ms <-> Forall (first_ok d) ms) as FF.
  { rewrite !Forall_forall. split; intros H x I; apply F; apply H; exact I. }
  pose proof (lookup_touch (m_id m) d (m_id m)) as L. unfold lookup in L at 1.
  destruct (dget (m_id m) (touch (m_id m) d)) as [[|r rest]|].
  - destruct (IH (touch (m_id m) d)) as [[A ->]|[A (e & ->)]].
    + left. split; [|reflexivity]. constructor; [|apply FF; exact A]. intros q l E. congruence.
    + right. split; [|eauto]. intros X. apply A. apply FF. inversion X; assumption.
  - destruct (bytes_eqb (fst (sort2 (gr_player_b r) (gr_player_w r))) (fst (sort2 (m_player_1 m) (m_player_2 m))) &&
              bytes_eqb (snd (sort2 (gr_player_b r) (gr_player_w r))) (snd (sort2 (m_player_1 m) (m_player_2 m)))) eqn:B.
    + assert (first_ok d m) as SM.
      { intros q l E. assert (q = r) as -> by congruence. apply andb_prop in B. destruct B as [B1 B2].
        destruct (bytes_eqb_spec (fst (sort2 (gr_player_b r) (gr_player_w r))) (fst (sort2 (m_player_1 m) (m_player_2 m)))) as [B3|]; [|discriminate].
        destruct (bytes_eqb_spec (snd (sort2 (gr_player_b r) (gr_player_w r))) (snd (sort2 (m_player_1 m) (m_player_2 m)))) as [B4|]; [|discriminate].
        apply sort2_spec. destruct (sort2 (gr_player_b r) (gr_player_w r)), (sort2 (m_player_1 m) (m_player_2 m)). cbn [fst snd] in *. congruence. }
      destruct (IH (touch (m_id m) d)) as [[A ->]|[A (e & ->)]].
      * left. split; [|reflexivity]. constructor; [exact SM|apply FF; exact A].
      * right. split; [|eauto]. intros X. apply A. apply FF. inversion X; assumption.
    + right. split; [|eauto]. intros X. inversion X as [|? ? H _]; subst. specialize (H r rest (eq_sym L)).
      apply sort2_spec in H. rewrite H, !bytes_eqb_refl in B. discriminate.
  - destruct (IH (touch (m_id m) d)) as [[A ->]|[A (e & ->)]].
    + left. split; [|reflexivity]. constructor; [|apply FF; exact A]. intros q l E. congruence.
    + right. split; [|eauto]. intros X. apply A. apply FF. inversion X; assumption.
Qed.

Lemma ghost_spec live d :
  ((forall id rs, In (id, rs) d -> In id live \/ rs <> []) /\
   exists gh, ghost_matchups live d = Ok gh /\ map fst gh = filter (fun id => negb (bmem id live)) (map fst d)) \/
  ((exists id, In (id, []) d /\ ~ In id live) /\ exists e, ghost_matchups live d = Err e).
Proof.
  induction d as [|[id rs] d IH]; [left; split; [intros ? ? []|exists []; auto]|].
  cbn [ghost_matchups map filter fst]. destruct (bmem_spec id live) as [I|I]; cbn [negb].
  - destruct IH as [[A (gh & -> & E)]|[(x & A & A2) (e & ->)]].
    + left. split; [|eauto]. intros i q [X|X]; [injection X as <- <-; auto|eauto].
    + right. split; [|eauto]. exists x. split; [right; exact A|exact A2].
  - destruct rs as [|r rs].
    + right. split; [|eauto]. exists id. split; [left; reflexivity|exact I].
    + destruct IH as [[A (gh & -> & E)]|[(x & A & A2) (e & ->)]]; cbn [bind].
      * left. split; [|eexists; split; [reflexivity|cbn [map fst]; rewrite E; reflexivity]].
        intros i q [X|X]; [injection X as <- <-; right; discriminate|eauto].
      * right. split; [|eauto]. exists x. split; [right; exact A|exact A2].
Qed.

Lemma blist_eqb_spec a : forall b, reflect (a = b) (blist_eqb a b).
Proof.
  induction a as [|x a IH]; intros [|y b]; cbn [blist_eqb]; try (constructor; congruence).
  destruct (bytes_eqb_spec x y); cbn; [|constructor; congruence]. destruct (IH b); constructor; congruence.
Qed.

Lemma unpickled d done listed : table_ok d done listed -> (forall g r, In (g, r) done -> pickles r) ->
  map (fun kv => (fst kv, map game_result_setstate (snd kv)))
    (map (fun kv => (fst kv, map game_result_getstate (snd kv))) d) = d.
Proof.
  intros (ND & _ & L) PK. rewrite map_map. cbn [fst snd].
  transitivity (map (fun kv : bytes * list game_result => kv) d); [|apply map_id].
  apply map_ext_in. intros [id rs] I. cbn [fst snd]. f_equal. rewrite map_map.
  transitivity (map (fun r : game_result => r) rs); [|apply map_id]. apply map_ext_in. intros r Ir.
  specialize (L id). unfold lookup in L. rewrite (In_dget _ _ _ ND I) in L. subst rs. unfold results_of in Ir.
  apply in_map_iff in Ir. destruct Ir as ([g r'] & <- & Ir). apply filter_In in Ir. eapply PK. exact (proj1 Ir).
Qed.

Lemma in_table d done listed id rs : table_ok d done listed -> In (id, rs) d -> rs = results_of id done.
Proof. intros (ND & _ & L) I. rewrite <- (L id). unfold lookup. rewrite (In_dget _ _ _ ND I). reflexivity. Qed.

Lemma of_matchup_results id done : of_matchup id (map fst done) = [] <-> results_of id done = [].
Proof. rewrite <- !length_zero_iff_nil, results_of_length. tauto. Qed.

Lemma NoDup_filter' {A} (f : A -> bool) l : NoDup l -> NoDup (filter f l).
Proof.
  induction 1 as [|x l N ND IH]; cbn [filter]; [constructor|]. destruct (f x); [constructor; [|exact IH]|exact IH].
  intros X. apply filter_In in X. tauto.
Qed.

Lemma NoDup_app_disj {A} (a b : list A) : NoDup a -> NoDup b -> (forall x, In x a -> ~ In x b) -> NoDup (a ++ b).
Proof.
  induction 1 as [|x a N ND IH]; intros HB HD; cbn [app]; [exact HB|]. constructor.
  - rewrite in_app_iff. intros [X|X]; [tauto|]. exact (HD x (or_introl eq_refl) X).
  - apply IH; [exact HB|]. intros y Y. apply HD. right. exact Y.
Qed.

Lemma set_status_spec cf st v : config_ok cf -> SInv st v ->
  (fits cf v /\ exists t, set_status cf st = Ok t /\
     Inv t (mkA cf (sv_done v) [] [] [] (fold_left (fun l m => add_to (m_id m) l) (cf_matchups cf) (sv_listed v)))) \/
  (~ fits cf v /\ exists e, set_status cf st = Err e).
Proof.
  intros CO (d & Ed & TB & (g & gs & Eg & HG & FB) & EC & PK).
  unfold set_status. rewrite EC, Ed, (unpickled _ _ _ TB PK), Eg.
  assert ((competitors_fit cf v /\ match cf_competitors cf with
    | None => Ok tt
    | Some cs =>
        match sv_competitors v with
        | None => Err KeyError
        | Some seen =>
            if Nat.ltb (List.length cs) (List.length seen) then Err CompetitionError
            else if blist_eqb (firstn (List.length seen) cs) seen then Ok tt
            else Err CompetitionError
        end
    end = Ok tt) \/ (~ competitors_fit cf v /\ exists e, match cf_competitors cf with
    | None => Ok tt
    | Some cs =>
        match sv_competitors v with
        | None => Err KeyError
        | Some seen =>
            if Nat.ltb (List.length cs) (List.length seen) then Err CompetitionError
            else if blist_eqb (firstn (List.length seen) cs) seen then Ok tt
            else Err CompetitionError
        end
    end = Err e)) as [[F1 ->]|[F1 (e & ->)]].
  { unfold competitors_fit. destruct (cf_competitors cf) as [cs|]; [|auto].
    destruct (sv_competitors v) as [seen|]; [|right; split; [intros (? & ? & X & _); discriminate|eauto]].
    destruct (Nat.ltb_spec (List.length cs) (List.length seen)) as [H|H].
    - right. split; [|eauto]. intros (s & more & X & Y). injection X as <-. subst cs. rewrite app_length in H. lia.
    - destruct (blist_eqb_spec (firstn (List.length seen) cs) seen) as [E|E].
      + left. split; [|reflexivity]. exists seen, (skipn (List.length seen) cs). split; [reflexivity|]. rewrite <- E at 1. symmetry. apply firstn_skipn.
      + right. split; [|eauto]. intros (s & more & X & Y). injection X as <-. apply E. subst cs.
        rewrite firstn_app, Nat.sub_diag, firstn_all. cbn [firstn]. apply app_nil_r. }
  2: { right. split; [intros (X & _); tauto|cbn [bind]; eauto]. }
  cbn [bind].
  assert (Forall (first_ok d) (cf_matchups cf) <-> players_fit cf v) as FP.
  { rewrite Forall_forall. unfold first_ok, players_fit. destruct TB as (_ & _ & L). split; intros H m.
    - intros r rest I E. eapply H; [exact I|]. rewrite L. exact E.
    - intros I r rest E. rewrite L in E. eapply H; eauto. }
  destruct (check_results_spec (cf_matchups cf) d) as [[F2 ->]|[F2 (e & ->)]].
  2: { right. split; [intros (_ & X & _); tauto|cbn [bind]; eauto]. }
  apply FP in F2. cbn [bind].
  pose proof (touch_all_ok (cf_matchups cf) d _ _ TB) as TB'.
  set (d' := touch_all (cf_matchups cf) d) in *.
  set (listed := fold_left _ _ _) in *.
  assert (forall x, In x listed <-> In x (sv_listed v) \/ In x (map m_id (cf_matchups cf))) as EL by (intros x; apply fold_add_In).
  destruct (ghost_spec (map m_id (cf_matchups cf)) d') as [[F3 (gh & -> & Egh)]|[(x & F3 & F4) (e & ->)]].
  2: { right. split; [|cbn [bind]; eauto]. intros (_ & _ & X).
       pose proof (in_table _ _ _ _ _ TB' F3) as Y.
       assert (In x (sv_listed v)) as Z.
       { destruct TB' as (_ & K & _). apply (in_map fst) in F3. apply K in F3. apply EL in F3. destruct F3; [assumption|tauto]. }
       destruct (X x Z); [tauto|congruence]. }
  cbn [bind]. left. split.
  { split; [exact F1|]. split; [exact F2|]. intros id I.
    assert (In id (map fst d')) as J by (destruct TB' as (_ & K & _); apply K; apply EL; auto).
    apply in_map_iff in J. destruct J as ([i rs] & E & J). cbn [fst] in E. subst i.
    rewrite <- (in_table _ _ _ _ _ TB' J). exact (F3 _ _ J). }
  eexists. split; [reflexivity|].
  set (specs := group_specs (cf_matchups cf) gh).
  assert (map fst specs = map m_id (cf_matchups cf) ++ map fst gh) as ES.
  { unfold specs, group_specs. rewrite map_app, !map_map. reflexivity. }
  assert (NoDup (map fst specs)) as NDS.
  { rewrite ES. apply NoDup_app_disj; [apply CO| |].
    - rewrite Egh. apply NoDup_filter'. apply TB'.
    - intros x X. rewrite Egh. rewrite filter_In. intros [_ Y]. destruct (bmem_spec x (map m_id (cf_matchups cf))); [discriminate|tauto]. }
  split; [reflexivity|]. split; [exact CO|]. split; [exact TB'|]. split; [exact NDS|]. split; [|split; [|split; [|split; [|split]]]].
  - cbn [t_sched a_done a_out]. change (specs_of _) with specs.
    pose proof (RG_rollback _ _ (RG_set_groups _ _ specs (RG_pickle _ _ HG) NDS)) as X. rewrite map_map in X.
    cbn [gr_code gr_limit gr_bag] in X.
    replace (map (grp (sv_done v) []) specs) with
      (map (fun x : bytes * option Z => mkGr (fst x) (snd x) (mkB (b_fixed (find_bag (fst x) gs)) [])) specs); [exact X|].
    apply map_ext. intros x. unfold grp, bag_of. rewrite FB. reflexivity.
  - cbn [a_done]. change (specs_of _) with specs. intros id n r I. rewrite ES, in_app_iff.
    destruct (bmem_spec id (map m_id (cf_matchups cf))) as [Y|Y]; [auto|right]. rewrite Egh. apply filter_In. split.
    + pose proof TB' as (_ & K & L). apply K. eapply (table_listed d' (sv_done v) listed); [exact TB'|].
      intros Z. apply of_matchup_results in Z. assert (In n (of_matchup id (map fst (sv_done v)))) as J by (apply of_matchup_In; apply (in_map fst) in I; exact I).
      rewrite Z in J. destruct J.
    + destruct (bmem_spec id (map m_id (cf_matchups cf))); [contradiction|reflexivity].
  - intros ? ? [].
  - reflexivity.
  - reflexivity.
  - exact PK.
Qed.

Lemma start_step s x cf : config_ok cf -> SysInv s x -> step_ok s (TStart cf) x.
Proof.
  intros CO (_ & SV). unfold step_ok. destruct s as [t sv], x as [a v]. cbn [fst snd] in SV. cbn [trun_step].
  destruct sv as [st|], v as [v|]; try contradiction.
  - destruct (set_status_spec cf st v CO SV) as [[F (t' & -> & I)]|[F (e & ->)]]; cbn [fst snd].
    + eexists. split; [eapply at_start; [exact F|]|split; [exact I|exact SV]]. intros id. apply fold_add_In.
    + eexists. split; [apply at_start_refused; exact F|split; [exact Logic.I|exact SV]].
  - cbn [fst snd]. eexists. split; [apply at_start_clean|]. split; [|exact SV]. cbn [fst].
    assert (map fst (group_specs (cf_matchups cf) []) = map m_id (cf_matchups cf)) as ES.
    { unfold group_specs. cbn [map]. rewrite app_nil_r, map_map. reflexivity. }
    split; [reflexivity|]. split; [exact CO|]. split; [split; [constructor|split; [tauto|reflexivity]]|].
    split; [unfold specs_of; cbn [set_clean_status t_ghosts t_config]; rewrite ES; apply CO|].
    split; [|split; [|split; [|split; [|split]]]]; try reflexivity; try (cbn [a_done a_out In]; intros; contradiction).
    apply (RG_set_groups _ _ (group_specs (cf_matchups cf) []) RG_init). rewrite ES. apply CO.
Qed.

Lemma sys_step s x e : event_ok e -> SysInv s x -> step_ok s e x.
Proof.
  intros OK I. destruct e; try (destruct s as [[t|] sv], x as [[a|] v]; pose proof I as [I1 _]; cbn [fst] in I1; try contradiction;
    [|exists (None, v); split; [apply at_idle; intros cf; discriminate|exact I]]).
  - destruct (get_step _ _ _ _ I1 I) as (y & A & B). exists y. auto.
  - apply result_step; assumption.
  - apply error_step; assumption.
  - apply report_step; assumption.
  - apply save_step; assumption.
  - apply start_step; assumption.
Qed.

Lemma sys_run es : forall s x, Forall event_ok es -> SysInv s x ->
  exists y, atrun x es (snd (trun s es)) y /\ SysInv (fst (trun s es)) y.
Proof.
  induction es as [|e es IH]; intros s x OK I; [exists x; split; [constructor|exact I]|].
  inversion OK as [|? ? OK1 OK2]; subst. destruct (sys_step s x e OK1 I) as (y & A & B).
  cbn [trun]. destruct (trun_step s e) as [s1 an]. cbn [fst snd] in A, B.
  destruct (IH s1 y OK2 B) as (z & C & D). destruct (trun s1 es) as [s2 os]. cbn [fst snd] in *.
  exists z. split; [econstructor; eauto|exact D].
Qed.

Lemma C25_refines_proof es : Forall event_ok es ->
  exists y, atrun (None, None) es (snd (trun (None, None) es)) y /\
    match fst (fst (trun (None, None) es)), fst y with
    | Some t, Some a => forall id, get_matchup_results t id = results_of id (a_done a)
    | None, None => True
    | _, _ => False
    end.
Proof.
  intros OK. destruct (sys_run es (None, None) (None, None) OK) as (y & A & B & _); [split; exact Logic.I|].
  exists y. split; [exact A|]. destruct (fst (fst (trun (None, None) es))) as [t|], (fst y) as [a|]; try contradiction; [|auto].
  destruct B as (_ & _ & (_ & _ & L) & _). exact L.
Qed.

(** ** Consequences on the abstract side *)
Definition games_ok (a : astate) : Prop := NoDup (map fst (a_done a) ++ a_out a).
Definition aok (x : asys) : Prop :=
  match fst x with None => True | Some a => games_ok a end /\
  match snd x with None => True | Some v => NoDup (map fst (sv_done v)) end.

Lemma NoDup_app_l {A} (a b : list A) : NoDup (a ++ b) -> NoDup a.
Proof. induction a as [|x a IH]; cbn [app]; intros H; [constructor|]. inversion H as [|? ? N ND]; subst. constructor; [rewrite in_app_iff in N; tauto|auto]. Qed.

Lemma atstep_ok x e an y : atstep x e an y -> aok x -> aok y.
Proof.
  intros S [H1 H2]. destruct S; cbn [fst snd] in *; split; cbn [fst snd a_done a_out sv_done]; auto; unfold games_ok in *; cbn [a_done a_out].
  - apply NoDup_app_disj.
    + eapply NoDup_app_l; exact H1.
    + constructor.
      * intros X. apply H5. unfold in_hand. apply in_or_app. right. apply of_matchup_In. exact X.
      * induction (map fst (a_done a)) as [|z l IH]; [exact H1|]. apply IH. inversion H1; assumption.
    + intros z Z [X|X].
      * subst z. apply H5. unfold in_hand. apply in_or_app. left. apply of_matchup_In. exact Z.
      * apply in_split in Z. destruct Z as (l1 & l2 & Z). rewrite Z in H1. rewrite <- app_assoc in H1. cbn [app] in H1.
        apply NoDup_remove_2 in H1. apply H1. apply in_or_app. right. apply in_or_app. auto.
  - rewrite H0 in H1. rewrite map_app. cbn [map fst]. rewrite <- app_assoc. cbn [app].
    eapply Permutation_NoDup; [|exact H1]. apply Permutation_app_head. symmetry. apply Permutation_middle.
  - eapply NoDup_app_l. exact H1.
  - constructor.
  - rewrite app_nil_r. exact H2.
Qed.

Lemma atrun_ok x es os y : atrun x es os y -> aok x -> aok y.
Proof. induction 1; auto. intros. apply IHatrun. eapply atstep_ok; eauto. Qed.
