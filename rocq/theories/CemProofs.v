(** Proofs about the cross-entropy tuner's games and generations (C43). *)
From Coq Require Import QArith Permutation.
From Verif Require Import Base Bytes PyStr Dict SchedModel SchedSpec SchedProofs GroupProofs CemModel CemSpec CemDistProofs.
Open Scope Z_scope.

(** ** Lists *)
Lemma map_seq_split {A} (f : nat -> A) k n l1 x l2 : map f (seq k n) = l1 ++ x :: l2 ->
  (List.length l1 < n)%nat /\ x = f (k + List.length l1)%nat /\ l1 = map f (seq k (List.length l1)) /\
  l2 = map f (seq (S (k + List.length l1)) (n - S (List.length l1))).
Proof.
  revert k l1. induction n as [|n IH]; intros k l1 E; [destruct l1; discriminate|]. cbn [seq map] in E. destruct l1 as [|y l1].
  - cbn in E. injection E as <- <-. cbn [List.length]. rewrite Nat.add_0_r, Nat.sub_succ, Nat.sub_0_r. split; [lia|]. split; [reflexivity|]. split; reflexivity.
  - cbn in E. injection E as <- E. destruct (IH (S k) l1 E) as (L & EX & E1 & E2). cbn [List.length seq map].
    rewrite <- plus_n_Sm. split; [lia|]. split; [exact EX|]. split; [f_equal; exact E1|exact E2].
Qed.
Lemma map_seq_update {A} (f g : nat -> A) i n : (i < n)%nat -> (forall j, j <> i -> f j = g j) ->
  map g (seq 0 n) = map f (seq 0 i) ++ g i :: map f (seq (S i) (n - S i)).
Proof.
  intros L H. replace (seq 0 n) with (seq 0 i ++ i :: seq (S i) (n - S i)).
  2:{ replace n with (i + S (n - S i))%nat at 2 by lia. rewrite seq_app. reflexivity. }
  rewrite map_app. cbn [map]. f_equal; [|f_equal]; apply map_ext_in; intros j I; apply in_seq in I; symmetry; apply H; lia.
Qed.

Definition rounds (i : nat) (l : list (nat * nat)) : list nat := map snd (filter (of_candidate i) l).
Lemma rounds_app i a b : rounds i (a ++ b) = rounds i a ++ rounds i b.
Proof. unfold rounds. rewrite filter_app, map_app. reflexivity. Qed.
Lemma rounds_cons i j t l : rounds i ((j, t) :: l) = (if Nat.eqb j i then [t] else []) ++ rounds i l.
Proof. unfold rounds. cbn. unfold of_candidate at 1. cbn. destruct (Nat.eqb j i); reflexivity. Qed.
Lemma rounds_in i t l : In t (rounds i l) <-> In (i, t) l.
Proof.
  unfold rounds. rewrite in_map_iff. split.
  - intros ([j u] & <- & I). apply filter_In in I. destruct I as [I E]. unfold of_candidate in E. cbn in *. apply Nat.eqb_eq in E. subst j. exact I.
  - intros I. exists (i, t). split; [reflexivity|]. apply filter_In. split; [exact I|]. unfold of_candidate. cbn. apply Nat.eqb_refl.
Qed.
Lemma rounds_length i l : List.length (rounds i l) = List.length (filter (of_candidate i) l).
Proof. apply map_length. Qed.
Lemma rounds_split i t l o1 o2 : rounds i l = o1 ++ t :: o2 ->
  exists l1 l2, l = l1 ++ (i, t) :: l2 /\ rounds i l1 = o1 /\ rounds i l2 = o2.
Proof.
  revert o1. induction l as [|[j u] l IH]; intros o1 E; [destruct o1; discriminate|]. rewrite rounds_cons in E. destruct (Nat.eqb_spec j i) as [->|N]; cbn in E.
  - destruct o1 as [|x o1]; cbn in E; injection E as EU E.
    + subst u. exists [], l. split; [reflexivity|]. split; [reflexivity|exact E].
    + destruct (IH o1 E) as (l1 & l2 & -> & E1 & E2). exists ((i, u) :: l1), l2. split; [reflexivity|]. split; [|exact E2].
      rewrite rounds_cons, Nat.eqb_refl. cbn. congruence.
  - destruct (IH o1 E) as (l1 & l2 & -> & E1 & E2). exists ((j, u) :: l1), l2. split; [reflexivity|]. split; [|exact E2].
    rewrite rounds_cons. destruct (Nat.eqb_spec j i); [contradiction|]. exact E1.
Qed.

(** ** Counting *)
Lemma begun_split l i : begun l i = finished l i + Z.of_nat (List.length (rounds i (cl_out l))).
Proof. unfold begun, finished, games. rewrite filter_app, app_length, rounds_length. lia. Qed.
Lemma in_games l i t : In (i, t) (games l) <-> In t (rounds i (map game_of (cl_done l))) \/ In t (rounds i (cl_out l)).
Proof. unfold games. rewrite in_app_iff, !rounds_in. reflexivity. Qed.
Lemma group_code_inj i j : group_code i = group_code j -> i = j.
Proof. intros E. apply (f_equal (@List.length _)) in E. unfold group_code in E. rewrite !repeat_length in E. exact E. Qed.
Lemma code_number_code i : code_number (group_code i) = i.
Proof. unfold code_number, group_code. apply repeat_length. Qed.
Lemma points_cons l i t n out j : points (end_game i t n out l) j = (if Nat.eqb i j then n else 0) + points l j.
Proof.
  unfold points, end_game. cbn [cl_done filter game_of fst]. unfold of_candidate at 1. cbn [fst]. destruct (Nat.eqb i j); reflexivity.
Qed.
Lemma begun_begin l i t j : begun (begin_game i t l) j = (if Nat.eqb i j then 1 else 0) + begun l j.
Proof.
  rewrite !begun_split. unfold finished, begin_game. cbn [cl_done cl_out]. rewrite rounds_cons. destruct (Nat.eqb i j); cbn [app List.length]; lia.
Qed.
Lemma finished_end l i t n out j : finished (end_game i t n out l) j = (if Nat.eqb i j then 1 else 0) + finished l j.
Proof.
  unfold finished. rewrite <- !rounds_length. unfold end_game. cbn [cl_done map game_of fst]. rewrite rounds_cons. destruct (Nat.eqb i j); cbn [app List.length]; lia.
Qed.
Lemma begun_end l i t n p1 p2 j : cl_out l = p1 ++ (i, t) :: p2 -> begun (end_game i t n (p1 ++ p2) l) j = begun l j.
Proof.
  intros E. rewrite !begun_split, finished_end. unfold end_game. cbn [cl_out]. rewrite E, !rounds_app, rounds_cons, !app_length.
  destruct (Nat.eqb i j); cbn [List.length app]; lia.
Qed.
Lemma games_end l i t n p1 p2 : cl_out l = p1 ++ (i, t) :: p2 -> Permutation (games (end_game i t n (p1 ++ p2) l)) (games l).
Proof.
  intros E. unfold games, end_game. cbn [cl_done cl_out map game_of fst]. rewrite E. cbn [app]. rewrite !app_assoc. apply Permutation_middle.
Qed.
Lemma half_range r n : half_points r n -> 0 <= n <= 2.
Proof. unfold half_points. destruct (cr_data r) as [[i code] t]. intuition lia. Qed.

Section Proofs.
Context {V P : Type}.
Variable possible : Q -> Q -> Q -> Prop.
Variable cf : cconfig V P.
Hypothesis cf_ok : cusable cf.

Let samples := cc_samples cf.
Let batch := cc_batch_size cf.

(** ** The abstract machine's invariant *)
Record LOK (l : cledger) : Prop := mkLOK {
  lo_nodup : NoDup (games l);
  lo_range : forall i t, In (i, t) (games l) -> (i < samples)%nat /\ Z.of_nat t < batch;
  lo_within : forall i, begun l i <= batch;
  lo_gens : (cl_gen l < cc_generations cf)%nat /\ ~ is_complete cf l \/ cl_gen l = cc_generations cf /\ is_complete cf l /\ cl_out l = [];
  lo_good : good_dist (cl_dist l);
  lo_dim : List.length (cl_dist l) = List.length (cc_initial cf);
  lo_samples : List.length (cl_samples l) = samples;
  lo_samples_dim : Forall (fun s => List.length s = List.length (cc_initial cf)) (cl_samples l);
  lo_points : forall g, In g (cl_done l) -> 0 <= snd g <= 2
}.



(** ** The scheduler's groups *)
Definition group_of (l : cledger) (i : nat) : group :=
  mkGr (group_code i) (Some batch) (mkB (rounds i (map game_of (cl_done l))) (rounds i (cl_out l))).
Definition groups (l : cledger) : list group := map (group_of l) (seq 0 samples).

Lemma issued_begun l i : issued_count (gr_bag (group_of l i)) = begun l i.
Proof. rewrite begun_split. unfold issued_count, finished. cbn. rewrite !rounds_length. lia. Qed.
Lemma fixed_finished l i : fixed_count (gr_bag (group_of l i)) = finished l i.
Proof. unfold fixed_count, finished. cbn. rewrite rounds_length. reflexivity. Qed.

Lemma groups_complete l : (forall gr, In gr (groups l) -> limit_fixed gr) <-> is_complete cf l.
Proof.
  unfold groups, is_complete, limit_fixed. split.
  - intros H i L. specialize (H (group_of l i)). rewrite fixed_finished in H. cbn [gr_limit group_of] in H. unfold batch in H.
    enough (finished l i >= cc_batch_size cf) by lia. apply H. apply in_map. apply in_seq. unfold samples. lia.
  - intros H gr I. apply in_map_iff in I. destruct I as (i & <- & I). apply in_seq in I. rewrite fixed_finished. cbn [gr_limit group_of].
    specialize (H i). unfold samples, batch in *. lia.
Qed.
Lemma groups_open l : (exists gr, In gr (groups l) /\ ~ limit_fixed gr) -> ~ is_complete cf l.
Proof. intros (gr & I & N) C. apply N. exact (proj2 (groups_complete l) C gr I). Qed.

Lemma groups_same l l' : map game_of (cl_done l') = map game_of (cl_done l) -> cl_out l' = cl_out l -> groups l' = groups l.
Proof. intros E1 E2. unfold groups. apply map_ext. intros i. unfold group_of. rewrite E1, E2. reflexivity. Qed.

Lemma groups_begin l i t : (i < samples)%nat ->
  groups (begin_game i t l) = map (group_of l) (seq 0 i) ++
    mkGr (group_code i) (Some batch) (mkB (rounds i (map game_of (cl_done l))) (t :: rounds i (cl_out l))) :: map (group_of l) (seq (S i) (samples - S i)).
Proof.
  intros L. unfold groups. rewrite (map_seq_update (group_of l) (group_of (begin_game i t l)) i samples L).
  - f_equal. f_equal. unfold group_of, begin_game. cbn [cl_done cl_out]. rewrite rounds_cons, Nat.eqb_refl. reflexivity.
  - intros j N. unfold group_of, begin_game. cbn [cl_done cl_out]. rewrite rounds_cons. destruct (Nat.eqb_spec i j); [congruence|reflexivity].
Qed.
Lemma groups_end l i t n p1 p2 : (i < samples)%nat -> cl_out l = p1 ++ (i, t) :: p2 ->
  groups (end_game i t n (p1 ++ p2) l) = map (group_of l) (seq 0 i) ++
    mkGr (group_code i) (Some batch) (mkB (t :: rounds i (map game_of (cl_done l))) (rounds i p1 ++ rounds i p2)) :: map (group_of l) (seq (S i) (samples - S i)).
Proof.
  intros L EO. unfold groups. rewrite (map_seq_update (group_of l) (group_of (end_game i t n (p1 ++ p2) l)) i samples L).
  - f_equal. f_equal. unfold group_of, end_game. cbn [cl_done cl_out map game_of fst]. rewrite rounds_cons, Nat.eqb_refl, rounds_app. reflexivity.
  - intros j N. unfold group_of, end_game. cbn [cl_done cl_out map game_of fst]. rewrite EO, rounds_cons, !rounds_app, rounds_cons.
    destruct (Nat.eqb_spec i j); [congruence|reflexivity].
Qed.

(** ** Points *)
Lemma add_nth_points l i t n out : (i < samples)%nat ->
  add_nth i n (all_points cf l) = Some (all_points cf (end_game i t n out l)).
Proof.
  intros L. unfold all_points. fold samples.
  assert (forall k m, (k <= i < k + m)%nat -> add_nth (i - k) n (map (points l) (seq k m)) = Some (map (points (end_game i t n out l)) (seq k m))) as H.
  { intros k m. revert k. induction m as [|m IH]; intros k K; [lia|]. cbn [seq map]. rewrite points_cons. destruct (Nat.eqb_spec i k) as [->|N].
    - rewrite Nat.sub_diag. cbn [add_nth]. f_equal. f_equal; [lia|]. apply map_ext_in. intros j J. apply in_seq in J. rewrite points_cons.
      destruct (Nat.eqb_spec k j); [lia|reflexivity].
    - replace (i - k)%nat with (S (i - S k)) by lia. cbn [add_nth]. rewrite (IH (S k)) by lia. reflexivity. }
  specialize (H 0%nat samples). rewrite Nat.sub_0_r in H. apply H. lia.
Qed.
Lemma points_zero l i t out : all_points cf (end_game i t 0 out l) = all_points cf l.
Proof. unfold all_points. apply map_ext. intros j. rewrite points_cons. destruct (Nat.eqb i j); reflexivity. Qed.

(** ** User functions *)
Lemma transform_total l : exists vs, transform_parameters cf l = Ok vs /\
  Forall2 (fun fx v => (fst fx) (snd fx) = Some v) (combine (cc_transforms cf) l) vs.
Proof.
  destruct cf_ok as (_ & _ & _ & H & _). unfold transform_parameters. clear -H. revert l. induction (cc_transforms cf) as [|f fs IH]; intros l.
  - exists []. cbn. split; [reflexivity|constructor].
  - destruct l as [|x l]; [exists []; split; [reflexivity|constructor]|]. cbn [transform_with combine].
    destruct (f x) as [v|] eqn:E. 2:{ exfalso. eapply (H f x); [left; reflexivity|exact E]. }
    destruct (IH ltac:(intros; apply H; right; assumption) l) as (vs & -> & F). cbn [bind]. exists (v :: vs). split; [reflexivity|]. constructor; assumption.
Qed.
Lemma transform_all_total l : transform_all cf l = Ok tt.
Proof. induction l as [|x l IH]; [reflexivity|]. cbn. destruct (transform_total x) as (vs & -> & _). exact IH. Qed.

Definition cand_ok (generation : nat) (sample : list Q) (i : nat) (c : bytes * P) : Prop :=
  exists vs p, Forall2 (fun fx v => (fst fx) (snd fx) = Some v) (combine (cc_transforms cf) sample) vs /\ cc_maker cf vs = Some p /\
    c = (candidate_code generation i, p).
Definition cands_ok (generation : nat) (ss : list (list Q)) (cs : list (bytes * P)) : Prop :=
  List.length cs = List.length ss /\ forall i s c, nth_error ss i = Some s -> nth_error cs i = Some c -> cand_ok generation s i c.

Lemma prepare_from_ok generation ss : forall k, exists cs, prepare_from cf generation k ss = Ok cs /\ List.length cs = List.length ss /\
  forall i s c, nth_error ss i = Some s -> nth_error cs i = Some c -> cand_ok generation s (k + i) c.
Proof.
  induction ss as [|s ss IH]; intros k.
  - exists []. split; [reflexivity|]. split; [reflexivity|]. intros [|i]; discriminate.
  - cbn [prepare_from]. destruct (transform_total s) as (vs & -> & F). cbn [bind]. unfold make_candidate.
    destruct (cc_maker cf vs) as [p|] eqn:E. 2:{ exfalso. destruct cf_ok as (_ & _ & _ & _ & H & _). exact (H vs E). }
    cbn [bind]. destruct (IH (S k)) as (cs & -> & L & H). cbn [bind]. eexists. split; [reflexivity|]. split; [cbn; lia|].
    intros [|i] s1 c ES EC; cbn [nth_error] in ES, EC.
    + injection ES as <-. injection EC as <-. rewrite Nat.add_0_r. exists vs, p. split; [exact F|]. split; [exact E|reflexivity].
    + rewrite <- plus_n_Sm. exact (H i s1 c ES EC).
Qed.
Lemma prepare_ok generation ss : exists cs, prepare_candidates cf generation ss = Ok cs /\ cands_ok generation ss cs.
Proof. destruct (prepare_from_ok generation ss 0) as (cs & E & L & H). exists cs. split; [exact E|]. split; [exact L|exact H]. Qed.

Lemma transform_random g c l : transform_parameters (with_random g c cf) l = transform_parameters cf l.
Proof. reflexivity. Qed.
Lemma transform_all_random g c l : transform_all (with_random g c cf) l = transform_all cf l.
Proof. induction l as [|x l IH]; [reflexivity|]. cbn [transform_all]. rewrite transform_random, IH. reflexivity. Qed.
Lemma prepare_random g c generation ss : prepare_candidates (with_random g c cf) generation ss = prepare_candidates cf generation ss.
Proof.
  unfold prepare_candidates. generalize 0%nat. induction ss as [|s ss IH]; intros k; [reflexivity|]. cbn [prepare_from]. rewrite transform_random, IH. reflexivity.
Qed.

Lemma get_sample_drawn c g coin d : c = with_random g coin cf -> (forall k m v, possible m v (g k m v)) -> forall used,
  Forall2 (fun p x => possible (fst p) (snd p) x) d (get_sample c used d).
Proof.
  intros -> H. induction d as [|[m v] d IH]; intros used; cbn; constructor; [cbn; apply H|apply IH].
Qed.
Lemma get_samples_drawn c g coin d : c = with_random g coin cf -> (forall k m v, possible m v (g k m v)) -> forall n used,
  List.length (get_samples c used n d) = n /\ forall s, In s (get_samples c used n d) -> Forall2 (fun p x => possible (fst p) (snd p) x) d s.
Proof.
  intros E H. induction n as [|n IH]; intros used; cbn; [split; [reflexivity|intros ? []]|]. destruct (IH (used + List.length d)%nat) as [L F].
  split; [lia|]. intros s [<-|I]; [eapply get_sample_drawn; eauto|auto].
Qed.
Lemma drawn_dims d ss : drawn possible cf d ss -> Forall (fun s => List.length s = List.length d) ss.
Proof. intros [_ H]. apply Forall_forall. intros s I. apply H in I. clear -I. induction I; cbn; congruence. Qed.

(** ** The machine keeps its invariant *)
Lemma complete_full l : LOK l -> is_complete cf l -> cl_out l = [].
Proof.
  intros L C. destruct (cl_out l) as [|[i t] out] eqn:E; [reflexivity|exfalso].
  assert (In (i, t) (games l)) as I. { unfold games. rewrite E. apply in_or_app. right. left. reflexivity. }
  destruct (lo_range _ L i t I) as [R _]. specialize (C i R). pose proof (lo_within _ L i) as W. rewrite begun_split, E, rounds_cons, Nat.eqb_refl in W.
  cbn [app List.length] in W. unfold batch in W. lia.
Qed.
Lemma next_round l i t : LOK l -> next_game cf l i t -> Z.of_nat t <= begun l i.
Proof.
  intros L (_ & _ & _ & _ & H). unfold begun. rewrite <- rounds_length.
  enough (List.length (seq 0 t) <= List.length (rounds i (games l)))%nat by (rewrite seq_length in *; lia).
  apply NoDup_incl_length; [apply seq_NoDup|]. intros u I. apply in_seq in I. apply rounds_in. apply H. lia.
Qed.

Lemma fresh_lok g d ss : (g < cc_generations cf)%nat -> good_dist d -> List.length d = List.length (cc_initial cf) -> drawn possible cf d ss ->
  forall seen, LOK (mkCL g d ss [] [] seen).
Proof.
  intros G GD LD D seen. constructor; cbn.
  - constructor.
  - intros i t [].
  - intros i. unfold begun. cbn. destruct cf_ok as (_ & _ & _ & _ & _ & B & _). unfold batch. lia.
  - left. split; [exact G|]. intros C. destruct cf_ok as (_ & _ & _ & _ & _ & B & S & _). specialize (C 0%nat ltac:(lia)). unfold finished in C. cbn in C. lia.
  - exact GD.
  - exact LD.
  - apply D.
  - rewrite <- LD. apply drawn_dims. exact D.
  - intros g0 [].
Qed.

Lemma initial_good : good_dist (cc_initial cf).
Proof. destruct cf_ok as (A & B & _). split; assumption. Qed.

Lemma initial_lok l : initial possible cf l -> LOK l.
Proof.
  intros (ss & D & ->). apply fresh_lok; [|apply initial_good|reflexivity|exact D].
  destruct cf_ok as (_ & _ & _ & _ & _ & _ & _ & G & _). lia.
Qed.

Lemma restart_lok v : LOK v -> LOK (mkCL (cl_gen v) (cl_dist v) (cl_samples v) (cl_done v) [] false).
Proof.
  intros L. constructor; cbn [cl_gen cl_dist cl_samples cl_done cl_out].
  - pose proof (lo_nodup _ L) as N. unfold games in *. cbn [cl_done cl_out]. rewrite app_nil_r. apply NoDup_app_inv in N. apply N.
  - intros i t I. apply (lo_range _ L). unfold games in *. cbn [cl_done cl_out] in I. rewrite app_nil_r in I. apply in_or_app. left. exact I.
  - intros i. pose proof (lo_within _ L i) as W. rewrite begun_split in *. unfold finished in *. cbn [cl_done cl_out rounds filter map List.length] in *. lia.
  - destruct (lo_gens _ L) as [[A B]|[A [B C]]]; [left; split; [exact A|exact B]|right; split; [exact A|]; split; [exact B|reflexivity]].
  - apply L.
  - apply L.
  - apply L.
  - apply L.
  - apply L.
Qed.

Lemma end_lok l i t n p1 p2 : LOK l -> cl_out l = p1 ++ (i, t) :: p2 -> 0 <= n <= 2 ->
  let l1 := end_game i t n (p1 ++ p2) l in
  NoDup (games l1) /\ (forall j u, In (j, u) (games l1) -> (j < samples)%nat /\ Z.of_nat u < batch) /\ (forall j, begun l1 j <= batch) /\
  (forall g, In g (cl_done l1) -> 0 <= snd g <= 2) /\ (cl_gen l < cc_generations cf)%nat /\ (is_complete cf l1 -> p1 ++ p2 = []).
Proof.
  intros L E N l1. pose proof (games_end l i t n p1 p2 E) as PG. fold l1 in PG.
  assert (forall j, begun l1 j <= batch) as W. { intros j. unfold l1. rewrite (begun_end l i t n p1 p2 j E). apply L. }
  assert (forall j u, In (j, u) (games l1) -> (j < samples)%nat /\ Z.of_nat u < batch) as RG1.
  { intros j u I. apply (lo_range _ L). eapply Permutation_in; [exact PG|exact I]. }
  split; [eapply Permutation_NoDup; [symmetry; exact PG|apply L]|]. split; [exact RG1|]. split; [exact W|]. split; [|split].
  - intros g [<-|I]; [exact N|apply (lo_points _ L); exact I].
  - destruct (lo_gens _ L) as [[A _]|[_ [_ C]]]; [exact A|]. rewrite C in E. destruct p1; discriminate.
  - intros C. destruct (p1 ++ p2) as [|[j u] out] eqn:EO; [reflexivity|exfalso].
    assert (In (j, u) (games l1)) as I. { unfold games, l1. rewrite ?EO. cbn [end_game cl_out]. apply in_or_app. right. left. reflexivity. }
    destruct (RG1 j u I) as [R _]. specialize (C j R). specialize (W j). rewrite begun_split in W. unfold l1 in W at 2. cbn [end_game cl_out] in W.
    rewrite rounds_cons, Nat.eqb_refl in W. cbn [app List.length] in W. unfold batch in W. lia.
Qed.


Lemma learned_good l d : LOK l -> learned cf l d -> good_dist d /\ List.length d = List.length (cc_initial cf).
Proof.
  intros L (es & ss & (_ & _ & NC & _) & F & U). destruct cf_ok as (_ & _ & _ & _ & _ & _ & _ & _ & _ & ST). split.
  - eapply updated_good; [exact ST| |apply (lo_good _ L)|exact U]. destruct NC as (N1 & _). destruct F; [cbn in N1; lia|discriminate].
  - rewrite (proj1 U). apply (lo_dim _ L).
Qed.

Definition LOKs (s : cledger * option cledger) : Prop := LOK (fst s) /\ forall v, snd s = Some v -> LOK v.

Lemma learned_good' l i t n d : LOK l -> learned cf (end_game i t n [] l) d -> good_dist d /\ List.length d = List.length (cc_initial cf).
Proof.
  intros L (es & ss & (_ & _ & NC & _) & F & U). destruct cf_ok as (_ & _ & _ & _ & _ & _ & _ & _ & _ & ST). split.
  - eapply updated_good; [exact ST| |apply (lo_good _ L)|exact U]. destruct NC as (N1 & _). destruct F; [cbn in N1; lia|discriminate].
  - rewrite (proj1 U). apply (lo_dim _ L).
Qed.

Lemma cstep_lok s (e : cevent P) s' : cstep possible cf s e s' -> LOKs s -> LOKs s'.
Proof.
  intros C [L LV]. destruct C as [l v i t j NG JF|l v H|l v r i code t n o1 o2 l1 ED EO HP -> NC|l v r i code t n l1 d ss ED EO HP -> CO LE NE DR|l v r i code t n l1 d ED EO HP -> CO LE NE|l v r i code t ED NI|l v n H|l v n H1 H2|l v|l v|l ss DR]; cbn [fst snd] in *; (split; cbn [fst snd]; [|try exact LV]).
  - pose proof (next_round l i t L NG) as NR. destruct NG as (R & B & M & NI & SM). constructor; try apply L.
    + unfold games, begin_game. cbn [cl_done cl_out]. rewrite <- Permutation_middle. constructor; [exact NI|apply L].
    + intros j0 u I. unfold games, begin_game in I. cbn [cl_done cl_out] in I. apply in_app_or in I. destruct I as [I|[I|I]].
      * apply (lo_range _ L). apply in_or_app. auto.
      * injection I as <- <-. unfold samples, batch. split; [exact R|lia].
      * apply (lo_range _ L). apply in_or_app. auto.
    + intros j0. rewrite begun_begin. destruct (Nat.eqb_spec i j0) as [<-|N]; [unfold batch; lia|pose proof (lo_within _ L j0); lia].
    + destruct (lo_gens _ L) as [A|[_ [A _]]]; [left; exact A|exfalso]. specialize (A i R). rewrite begun_split in B. lia.
  - exact L.
  - destruct (end_lok l i t n o1 o2 L EO (half_range _ _ HP)) as (A1 & A2 & A3 & A4 & A5 & A6). constructor; try assumption; try apply L. left. split; assumption.
  - destruct (learned_good' l i t n d L LE) as [G1 G2]. destruct (end_lok l i t n [] [] L EO (half_range _ _ HP)) as (_ & _ & _ & _ & A5 & _).
    apply fresh_lok; try assumption. lia.
  - destruct (learned_good' l i t n d L LE) as [G1 G2]. destruct (end_lok l i t n [] [] L EO (half_range _ _ HP)) as (A1 & A2 & A3 & A4 & _ & _).
    constructor; try assumption; try apply L. cbn [cl_gen cl_out]. right. split; [exact NE|]. split; [exact CO|reflexivity].
  - destruct L. constructor; assumption.
  - exact L.
  - exact L.
  - exact L.
  - intros v' E. injection E as <-. exact L.
  - apply restart_lok. apply LV. reflexivity.
  - apply initial_lok. exists ss. split; [exact DR|reflexivity].
Qed.
Lemma csteps_lok s (es : list (cevent P)) s' : csteps possible cf s es s' -> LOKs s -> LOKs s'.
Proof. induction 1 as [|s e s1 es s2 C CS IH]; intros L; [exact L|]. apply IH. eapply cstep_lok; eauto. Qed.
End Proofs.
