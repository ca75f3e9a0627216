(** C43: the cross-entropy tuner's generations. *)
From Coq Require Import QArith Lqa Permutation.
From Coq Require Floats.SpecFloat.
From Verif Require Import Base Bytes PyStr Dict JobModel JobSpec RingModel RingSpec SchedModel
  CemModel CemSpec CemDistProofs CemProofs CemTunerProofs CemRing CemMachineProofs CemFloat.
Open Scope Z_scope.

(** The tuner can always be started, and every sequence of calls -- games asked for, results
    and errors in any order, the status being saved, the process being killed and started
    again with the last saved status -- behaves as CemSpec says, from a fresh generation 0;
    what the tuner shows (its generation, distribution, samples and points) is what follows
    from the games that were finished. *)
Theorem C43_history : forall (V P : Type) (possible : Q -> Q -> Q -> Prop) (cf : cconfig V P) gauss coin calls,
  cusable cf -> (forall k m v, possible m v (gauss k m v)) -> Forall (call_ok possible) calls ->
  exists t0 t status events start now saved,
    set_clean_status (with_random gauss coin cf) = Ok t0 /\
    crun cf (t0, None) calls = Some (t, status, events) /\
    initial possible cf start /\ csteps possible cf (start, None) events (now, saved) /\
    ct_generation t = cl_gen now /\ ct_distribution t = cl_dist now /\ ct_samples t = cl_samples now /\
    ct_wins t = all_points cf now.
Proof.
  intros V P possible cf g c calls OK PO F. destruct (clean_inv possible cf OK g c PO) as (t0 & l0 & E0 & I0 & C0).
  destruct (crun_steps possible cf OK calls (t0, None) (l0, None)) as ([t st] & es & [l v] & ER & CS & [CI _]); [split; [exact C0|exact I]|exact F|].
  exists t0, t, st, es, l0, l, v. split; [exact E0|]. split; [exact ER|]. split; [exact I0|]. split; [exact CS|].
  cbn [fst] in CI. destruct CI. auto.
Qed.
Print Assumptions C43_history.

(** At any time, no game of the present generation is finished or in progress twice; they are
    rounds 0 .. batch_size - 1 of candidates 0 .. samples_per_generation - 1, and at most
    batch_size games have been begun for any candidate. *)
Theorem C43_games : forall (V P : Type) (possible : Q -> Q -> Q -> Prop) (cf : cconfig V P) start events now saved,
  cusable cf -> initial possible cf start -> csteps possible cf (start, None) events (now, saved) ->
  NoDup (games now) /\
  (forall i t, In (i, t) (games now) -> (i < cc_samples cf)%nat /\ Z.of_nat t < cc_batch_size cf) /\
  (forall i, begun now i <= cc_batch_size cf) /\ (cl_gen now <= cc_generations cf)%nat /\
  List.length (cl_samples now) = cc_samples cf.
Proof.
  intros V P possible cf l0 es l v OK I C. destruct (steps_lok possible cf OK l0 es l v I C) as [L _]. cbn [fst] in L.
  split; [exact (lo_nodup _ _ L)|]. split; [exact (lo_range _ _ L)|]. split; [exact (lo_within _ _ L)|]. split; [|exact (lo_samples _ _ L)].
  destruct (lo_gens _ _ L) as [[X _]|[X _]]; lia.
Qed.
Print Assumptions C43_games.

(** A generation ends when exactly batch_size games of each of its candidates have been
    finished: rounds 0 .. batch_size - 1, once each (whatever crashes there have been).  The
    new distribution is what is learned from their results. *)
Theorem C43_generation_end : forall (V P : Type) (possible : Q -> Q -> Q -> Prop) (cf : cconfig V P) start events now saved r answer next saved',
  cusable cf -> initial possible cf start -> csteps possible cf (start, None) events (now, saved) ->
  cstep possible cf (now, saved) (CResulted r answer) (next, saved') -> cl_gen next <> cl_gen now ->
  exists i code t n, cr_data r = (i, code, t) /\ half_points r n /\ cl_gen next = S (cl_gen now) /\ (cl_gen now < cc_generations cf)%nat /\
    Permutation ((i, t) :: map game_of (cl_done now)) (list_prod (seq 0 (cc_samples cf)) (seq 0 (Z.to_nat (cc_batch_size cf)))) /\
    learned cf (end_game i t n [] now) (cl_dist next).
Proof.
  intros V P possible cf l0 es l v r a l' v' OK I C S1 NG. destruct (steps_lok possible cf OK l0 es l v I C) as [L _]. cbn [fst] in L.
  destruct (generation_end possible cf OK l v r a l' v' L S1 NG) as (i & code & t & n & A1 & _ & _ & A2 & A3 & A4 & A5 & A6).
  exists i, code, t, n. auto 10.
Qed.
Print Assumptions C43_generation_end.

(** If no game is available and none is in progress, number_of_generations generations have
    been finished. *)
Theorem C43_no_more_games : forall (V P : Type) (possible : Q -> Q -> Q -> Prop) (cf : cconfig V P) start events now saved next,
  cusable cf -> initial possible cf start -> csteps possible cf (start, None) events (now, saved) ->
  cstep possible cf (now, saved) (CGot (Ok None)) next -> cl_out now = [] ->
  cl_gen now = cc_generations cf.
Proof.
  intros V P possible cf l0 es l v next OK I C S1 EO. destruct (steps_lok possible cf OK l0 es l v I C) as [L _]. cbn [fst] in L.
  inversion S1 as [|? ? H| | | | | | | | |]; subst. exact (proj1 (no_more cf OK l L H EO)).
Qed.
Print Assumptions C43_no_more_games.

(** What was saved isn't lost: afterwards, either the generation is the same, with the same
    distribution and samples, and the games finished before count with the same results; or
    the generation is a later one. *)
Theorem C43_saved : forall (V P : Type) (possible : Q -> Q -> Q -> Prop) (cf : cconfig V P) start e1 e2 now saved,
  cusable cf -> initial possible cf start -> csteps possible cf (start, None) (e1 ++ CSaved :: e2) (now, saved) ->
  exists before v, csteps possible cf (start, None) e1 (before, v) /\
    ((cl_gen before < cl_gen now)%nat \/
     (cl_gen before = cl_gen now /\ cl_dist before = cl_dist now /\ cl_samples before = cl_samples now /\
      incl (cl_done before) (cl_done now))) /\
    (* and those games aren't begun again in this generation *)
    forall answer next, cstep possible cf (now, saved) (CGot answer) next -> cl_gen before = cl_gen now ->
      match answer with
      | Ok (Some j) => ~ In (let '(i, _, t) := cj_data j in (i, t)) (map game_of (cl_done before))
      | _ => True
      end.
Proof.
  intros V P possible cf l0 e1 e2 l v OK I C. destruct (csteps_split possible cf _ _ _ _ C) as ([b vb] & C1 & C2). exists b, vb. split; [exact C1|].
  inversion C2 as [|? ? s1 ? ? S1 S2]; subst. inversion S1; subst. assert (keeps b b) as KB by (right; do 3 (split; [reflexivity|]); intros x X; exact X).
  destruct (csteps_keeps possible cf b _ _ _ S2 (conj KB KB)) as [K _]. cbn [fst] in K.
  split; [exact K|]. intros a next SG EG. destruct a as [[j|]|]; [|exact Logic.I|exact Logic.I].
  destruct K as [K|(_ & _ & _ & K)]; [lia|]. inversion SG as [? ? i t j' NG JF| | | | | | | | | |]; subst. destruct JF as (sm & ps & p & _ & _ & _ & _ & ED & _). rewrite ED.
  intros X. destruct NG as (_ & _ & _ & NI & _). apply NI. unfold games. apply in_or_app. left. apply in_map_iff in X. destruct X as (g & <- & IG). apply in_map_iff. exists g. auto.
Qed.
Print Assumptions C43_saved.

(** The ids of different games (of any generations) are different. *)
Theorem C43_game_ids : forall g i t g' i' t', game_id g i t = game_id g' i' t' -> (g, i, t) = (g', i', t').
Proof. exact game_id_inj. Qed.
Print Assumptions C43_game_ids.

(** Variances never become negative, and the number of parameters stays the same. *)
Theorem C43_variances : forall (V P : Type) (possible : Q -> Q -> Q -> Prop) (cf : cconfig V P) start events now saved,
  cusable cf -> initial possible cf start -> csteps possible cf (start, None) events (now, saved) ->
  List.length (cl_dist now) = List.length (cc_initial cf) /\ Forall (fun p => 0 <= snd p)%Q (cl_dist now).
Proof.
  intros V P possible cf l0 es l v OK I C. destruct (steps_lok possible cf OK l0 es l v I C) as [L _]. cbn [fst] in L.
  split; [exact (lo_dim _ _ L)|exact (proj2 (lo_good _ _ L))].
Qed.
Print Assumptions C43_variances.

(** The elites: the given proportion of the candidates (to the nearest integer, but at least
    one); no other candidate has more points. *)
Theorem C43_elites : forall p points, (0 < p < 1)%Q -> points <> [] ->
  elites_of p points (map snd (firstn (elite_count p (List.length points)) (sorter points))).
Proof. exact elites_correct. Qed.
Print Assumptions C43_elites.

(** update_distribution accepts any number of elites, and gives the mix of the old
    distribution with the elites' mean and variance. *)
Theorem C43_update_distribution : forall step old elites,
  (0 < step < 1)%Q -> old <> [] -> Forall (fun p => 0 <= snd p)%Q old -> elites <> [] ->
  Forall (fun e => List.length e = List.length old) elites ->
  exists new, update_distribution old elites step = Ok new /\ updated step old elites new /\
    Forall (fun p => 0 <= snd p)%Q new.
Proof.
  intros step old elites ST NO G NE F. destruct (update_distribution_ok step old elites ST (conj NO G) NE F) as (new & E & U & GN).
  exists new. split; [exact E|]. split; [exact U|exact (proj2 GN)].
Qed.
Print Assumptions C43_update_distribution.

(** Means stay between the old mean and the elites' values. *)
Theorem C43_means_in_hull : forall step old elites new, (0 < step < 1)%Q -> elites <> [] -> updated step old elites new ->
  forall d o n lo hi, nth_error old d = Some o -> nth_error new d = Some n -> (lo <= fst o <= hi)%Q ->
    (forall e x, In e elites -> nth_error e d = Some x -> (lo <= x <= hi)%Q) -> (lo <= fst n <= hi)%Q.
Proof. exact updated_hull. Qed.
Print Assumptions C43_means_in_hull.

(** The mix is determined by the old distribution and the elites. *)
Theorem C43_update_is_a_function : forall step old elites new new', elites <> [] ->
  updated step old elites new -> updated step old elites new' ->
  Forall2 (fun a b => fst a == fst b /\ snd a == snd b)%Q new new'.
Proof. exact updated_unique. Qed.
Print Assumptions C43_update_is_a_function.

(** The tuner can be run by the ringmaster: everything in C29 holds for it, with control files
    that differ in the random numbers only. *)
Theorem C43_tuner_is_sound : forall (V P : Type) (possible : Q -> Q -> Q -> Prop) (cf : cconfig V P), cusable cf ->
  exists inv saved, sound cem_comp cj_id
    (fun c => exists gauss coin, c = with_random gauss coin cf /\ forall k m v, possible m v (gauss k m v))
    cem_answer inv saved (cem_records cf).
Proof. intros V P possible cf OK. exists (cinv possible cf), (csaved possible cf). exact (cem_sound possible cf OK). Qed.
Print Assumptions C43_tuner_is_sound.

(** With the rounding of floats, variances aren't always non-negative (and then the tuner
    stops with a ValueError): three elites with the parameter 0.1, mean 0.1 and variance 0. *)
Theorem C43_float_variance_can_be_negative :
  exists step x old, x = f_frac 1 10 /\ step = f_frac 4 5 /\ old = (x, f_int 0) /\
    f_negative (snd (f_update_dimension step [x; x; x] old)).
Proof. exists (f_frac 4 5), (f_frac 1 10), (f_frac 1 10, f_int 0). repeat split. Qed.
Print Assumptions C43_float_variance_can_be_negative.

(** ** Example: one parameter, two candidates, two games each, two generations. *)
Definition demo_cem : cconfig Q Q :=
  mkCC [(0%Q, 1%Q)] [fun q => Some q] (fun l => match l with [v] => Some v | _ => Some 0%Q end) (str "opp") 100%Q
       2 2 2 (1 # 2) (1 # 2) (Some Black) (fun _ m _ => m) (fun _ => true).
(** The random numbers: one more or less than the mean, by turns. *)
Definition demo_gauss (k : nat) (m v : Q) : Q := (if Nat.even k then m + 1 else m - 1)%Q.
Definition demo_possible (m v x : Q) : Prop := (m - 1 <= x <= m + 1)%Q.
Example C43_demo_usable : cusable demo_cem /\ forall k m v, demo_possible m v (demo_gauss k m v).
Proof.
  split.
  - split; [discriminate|]. split; [repeat constructor; discriminate|]. split; [reflexivity|].
    split; [intros f q [<-|[]]; discriminate|]. split; [intros [|x [|y l]]; discriminate|].
    cbn. do 3 (split; [auto with zarith|]). split; split; reflexivity.
  - intros k m v. unfold demo_possible, demo_gauss. destruct (Nat.even k); lra.
Qed.
Definition demo_result (g i t : nat) (win : bool) : cresponse :=
  mkCR (game_id g i t) (i, candidate_code g i, t) (candidate_code g i) (str "opp")
       (Some (if win then candidate_code g i else str "opp")).
(** The game 'g0#0r1' is lost in a crash and played again; candidate 1 is the elite. *)
Definition demo_cem_calls : list ccall :=
  [DGet; DGet; DResult (demo_result 0 1 0 true); DGet; DResult (demo_result 0 0 0 false); DSave; DGet;
   DRestart demo_gauss (fun _ => true); DGet; DGet; DResult (demo_result 0 0 1 true); DGet;
   DResult (demo_result 0 1 1 true); DGet; DError 0].
Example C43_demo :
  Forall (call_ok demo_possible) demo_cem_calls /\
  match set_clean_status (with_random demo_gauss (fun _ => true) demo_cem) with
  | Ok t0 =>
      match crun demo_cem (t0, None) demo_cem_calls with
      | Some (t, _, es) =>
          map (fun e => match e with CGot (Ok (Some j)) => Some (cj_id j) | _ => None end) es
            = [Some (str "g0#0r0"); Some (str "g0#1r0"); None; Some (str "g0#0r1"); None; None; Some (str "g0#1r1");
               None; Some (str "g0#0r1"); Some (str "g0#1r1"); None; None; None; Some (str "g1#0r0"); None] /\
          ct_generation t = 1%nat /\ map (fun p => (Qred (fst p), Qred (snd p))) (ct_distribution t) = [(-1 # 2, 1 # 2)] /\
          map (map Qred) (ct_samples t) = [[1 # 2]; [-3 # 2]]
      | None => False
      end
  | Err _ => False
  end.
Proof.
  split; [|vm_compute; repeat split].
  unfold demo_cem_calls. repeat (apply Forall_cons; [cbn; try exact I; try (left; reflexivity); exact (proj2 C43_demo_usable)|]). constructor.
Qed.
(** And the elite had more points than the other candidate. *)
Example C43_demo_elites : elites_of (1 # 2) [2; 4] [1%nat].
Proof. exact (C43_elites (1 # 2) [2; 4] ltac:(split; reflexivity) ltac:(discriminate)). Qed.
