(** Model of gomill/cem_tuners.py: distributions, generations and the tuner's scheduling.
    Python floats are exact rationals here: rounding isn't modelled (but see
    CemFloat.v). *)
From Coq Require Import QArith Qround.
From Verif Require Import Base Bytes PyStr Dict SchedModel.
From Verif Require MctsModel.
Open Scope Z_scope.

Notation CompetitionError := MctsModel.CompetitionError.
Definition ZeroDivisionError : exn := OtherError 133.

(** * Distributions (cem_tuners.py:22-85): lists of pairs (mean, variance). *)
Definition distribution : Type := list (Q * Q).

(** :31-37 [__init__]: an empty list is refused, and [sqrt] refuses negative numbers. *)
Definition new_distribution (parameters : distribution) : res distribution :=
  match parameters with
  | [] => Err ValueError
  | _ => if forallb (fun p => Qle_bool 0 (snd p)) parameters then Ok parameters else Err ValueError
  end.

(** :48-54 [get_means]. *)
Definition get_means (d : distribution) : list Q := map fst d.

Definition square (f : Q) : Q := (f * f)%Q.
Definition qsum (l : list Q) : Q := fold_left Qplus l 0%Q.
Definition qlen {A} (l : list A) : Q := inject_Z (Z.of_nat (List.length l)).

(** [[e[i] for e in elites]]. *)
Fixpoint column (i : nat) (elites : list (list Q)) : res (list Q) :=
  match elites with
  | [] => Ok []
  | e :: rest =>
      match nth_error e i with
      | None => Err IndexError
      | Some x => do l <- column i rest; Ok (x :: l)
      end
  end.

(** :76-83 the body of the loop of [update_distribution]. *)
Definition update_dimension (step_size : Q) (v : list Q) (old : Q * Q) : Q * Q :=
  let elite_mean := (qsum v / qlen v)%Q in
  let elite_var := (qsum (map square v) / qlen v - square elite_mean)%Q in
  let (old_mean, old_var) := old in
  ((elite_mean * step_size + old_mean * (1 - step_size))%Q,
   (elite_var * step_size + old_var * (1 - step_size))%Q).

(** :75 [for i in range(distribution.dimension)], from [i] on. *)
Fixpoint update_from (i : nat) (elites : list (list Q)) (step_size : Q) (old : distribution) : res distribution :=
  match old with
  | [] => Ok []
  | p :: rest =>
      do v <- column i elites;
      match v with
      | [] => Err ZeroDivisionError
      | _ => do l <- update_from (S i) elites step_size rest; Ok (update_dimension step_size v p :: l)
      end
  end.

(** :63-85 [update_distribution]. *)
Definition update_distribution (d : distribution) (elites : list (list Q)) (step_size : Q) : res distribution :=
  do l <- update_from 0 elites step_size d; new_distribution l.

(** * The end of a generation *)

(** Comparison of the pairs (wins, candidate number): [a] goes before [b] in decreasing order. *)
Definition pair_before (a b : Z * nat) : bool :=
  (fst b <? fst a) || ((fst a =? fst b) && (snd b <? snd a)%nat).
Fixpoint insert_pair (a : Z * nat) (l : list (Z * nat)) : list (Z * nat) :=
  match l with
  | [] => [a]
  | b :: rest => if pair_before a b then a :: l else b :: insert_pair a rest
  end.
(** :375-377 [sorter]. *)
Definition sort_pairs (l : list (Z * nat)) : list (Z * nat) := fold_right insert_pair [] l.
Definition sorter (wins : list Z) : list (Z * nat) :=
  sort_pairs (combine wins (seq 0 (List.length wins))).

(** :378-379 [elite_count]; the argument of int() is positive. *)
Definition elite_count (proportion : Q) (samples : nat) : nat :=
  Z.to_nat (Z.max 1 (Qfloor (proportion * inject_Z (Z.of_nat samples) + (1 # 2)))).

(** * The tuner *)
Section Tuner.
(** [V]: the engine parameters, [P]: what make_candidate returns. *)
Context {V P : Type}.

(** The settings (:140-155, 189-234).  [cc_transforms]: the parameters' transform functions
    (None: an exception); [cc_maker]: the make_candidate function followed by
    game_jobs_player_from_config, None if there is an exception or the value isn't a Player;
    [cc_gauss k mean variance]: the [k]th random number, asked for with this mean, and the
    square root of this variance as the standard deviation; [cc_coin]: the random colours. *)
Record cconfig : Type := mkCC {
  cc_initial : distribution;
  cc_transforms : list (Q -> option V);
  cc_maker : list V -> option P;
  cc_opponent : bytes;
  cc_opponent_player : P;
  cc_batch_size : Z;
  cc_samples : nat;               (* samples_per_generation *)
  cc_generations : nat;           (* number_of_generations *)
  cc_elite_proportion : Q;
  cc_step_size : Q;
  cc_colour : option colour;      (* None: 'random' *)
  cc_gauss : nat -> Q -> Q -> Q;
  cc_coin : nat -> bool
}.

(** :237-250 the attributes.  [ct_wins]: in half points. *)
Record ctuner : Type := mkCT {
  ct_conf : cconfig;
  ct_generation : nat;
  ct_distribution : distribution;
  ct_samples : list (list Q);          (* sample_parameters *)
  ct_wins : list Z;
  ct_candidates : list (bytes * P);
  ct_sched : gsched;
  ct_seen : bool;                      (* seen_successful_game *)
  ct_used : nat                        (* random numbers used *)
}.

(** Game jobs (:419-440), without the game settings, which are copied from the control file. *)
Record cjob : Type := mkCJ {
  cj_id : bytes;
  cj_data : nat * bytes * nat;         (* candidate number, candidate code, round id *)
  cj_black : bytes * P;
  cj_white : bytes * P
}.
(** What is used of a game's response. *)
Record cresponse : Type := mkCR {
  cr_id : bytes;
  cr_data : nat * bytes * nat;
  cr_black : bytes;                    (* game_result.player_b *)
  cr_white : bytes;
  cr_winner : option bytes             (* game_result.winning_player *)
}.
(** :265-272 what get_status returns, pickled. *)
Record cstatus : Type := mkCS {
  cst_generation : nat;
  cst_distribution : distribution;
  cst_samples : list (list Q);
  cst_wins : list Z;
  cst_sched : gstate
}.

(** The scheduler's group codes are the candidate numbers; SchedModel's are strings, so here
    they are written in unary (they are only compared for equality, as the groups have
    different priorities). *)
Definition group_code (n : nat) : bytes := repeat "#"%char n.
Definition code_number (c : bytes) : nat := List.length c.

(** :257-260 [_set_scheduler_groups]. *)
Definition group_specs (cf : cconfig) : list (bytes * option Z) :=
  map (fun i => (group_code i, Some (cc_batch_size cf))) (seq 0 (cc_samples cf)).

(** :294-303 [transform_parameters]. *)
Fixpoint transform_with (transforms : list (Q -> option V)) (l : list Q) : res (list V) :=
  match transforms, l with
  | f :: transforms', v :: l' =>
      match f v with
      | None => Err CompetitionError
      | Some x => do r <- transform_with transforms' l'; Ok (x :: r)
      end
  | _, _ => Ok []
  end.
Definition transform_parameters (cf : cconfig) (l : list Q) : res (list V) := transform_with (cc_transforms cf) l.

(** :320-321 [make_candidate_code]. *)
Definition make_candidate_code (generation candidate_number : nat) : bytes :=
  str "g" ++ str_int (Z.of_nat generation) ++ str "#" ++ str_int (Z.of_nat candidate_number).

(** :323-347 [make_candidate]. *)
Definition make_candidate (cf : cconfig) (code : bytes) (engine_parameters : list V) : res (bytes * P) :=
  match cc_maker cf engine_parameters with
  | None => Err CompetitionError
  | Some p => Ok (code, p)
  end.

(** :349-366 [prepare_candidates], from candidate [number] on. *)
Fixpoint prepare_from (cf : cconfig) (generation number : nat) (samples : list (list Q)) : res (list (bytes * P)) :=
  match samples with
  | [] => Ok []
  | s :: rest =>
      do ps <- transform_parameters cf s;
      do c <- make_candidate cf (make_candidate_code generation number) ps;
      do l <- prepare_from cf generation (S number) rest;
      Ok (c :: l)
  end.
Definition prepare_candidates (cf : cconfig) (generation : nat) (samples : list (list Q)) : res (list (bytes * P)) :=
  prepare_from cf generation 0 samples.

(** :39-46 [Distribution.get_sample]; [used]: the number of random numbers used before. *)
Fixpoint get_sample (cf : cconfig) (used : nat) (d : distribution) : list Q :=
  match d with
  | [] => []
  | (mean, variance) :: rest => cc_gauss cf used mean variance :: get_sample cf (S used) rest
  end.
(** :287-288. *)
Fixpoint get_samples (cf : cconfig) (used n : nat) (d : distribution) : list (list Q) :=
  match n with
  | O => []
  | S n' => get_sample cf used d :: get_samples cf (used + List.length d)%nat n' d
  end.

(** :285-292 [reset_for_new_generation]; the new values, and the number of random numbers
    used. *)
Definition reset_for_new_generation (t : ctuner) : res ctuner :=
  let cf := ct_conf t in
  let samples := get_samples cf (ct_used t) (cc_samples cf) (ct_distribution t) in
  do cands <- prepare_candidates cf (ct_generation t) samples;
  Ok (mkCT cf (ct_generation t) (ct_distribution t) samples (repeat 0 (cc_samples cf)) cands
           (set_groups new_gsched (group_specs cf)) (ct_seen t)
           (ct_used t + cc_samples cf * List.length (ct_distribution t))%nat).

(** :252-255 [set_clean_status], with :129-131 [__init__] and :232-234. *)
Definition set_clean_status (cf : cconfig) : res ctuner :=
  do d <- new_distribution (cc_initial cf);
  reset_for_new_generation (mkCT cf 0 d [] [] [] new_gsched false 0).

(** :265-272 [get_status]. *)
Definition get_status (t : ctuner) : cstatus :=
  mkCS (ct_generation t) (ct_distribution t) (ct_samples t) (ct_wins t) (gsched_getstate (ct_sched t)).

(** :274-283 [set_status], with :129-131 [__init__]. *)
Definition set_status (cf : cconfig) (st : cstatus) : res ctuner :=
  do d <- new_distribution (cst_distribution st);
  do cands <- prepare_candidates cf (cst_generation st) (cst_samples st);
  Ok (mkCT cf (cst_generation st) d (cst_samples st) (cst_wins st) cands
           (grollback (set_groups (gsched_setstate (cst_sched st)) (group_specs cf))) false 0).

(** :404-408 [choose_candidate_colour]. *)
Definition choose_candidate_colour (cf : cconfig) (k : nat) : colour * nat :=
  match cc_colour cf with
  | Some c => (c, k)
  | None => (if cc_coin cf k then Black else White, S k)
  end.

Definition with_sched (s : gsched) (used : nat) (t : ctuner) : ctuner :=
  mkCT (ct_conf t) (ct_generation t) (ct_distribution t) (ct_samples t) (ct_wins t) (ct_candidates t) s (ct_seen t) used.

(** :410-441 [get_game]; the log is in CemReportModel.v.  (The last step is for the job's sgf_note.) *)
Definition get_game (t : ctuner) : ctuner * res (option cjob) :=
  let cf := ct_conf t in
  let (s, x) := gissue (ct_sched t) in
  let t1 := with_sched s (ct_used t) t in
  match x with
  | Err e => (t1, Err e)
  | Ok None => (t1, Ok None)
  | Ok (Some (code, round_id)) =>
      let candidate_number := code_number code in
      match nth_error (ct_candidates t) candidate_number with
      | None => (t1, Err IndexError)
      | Some candidate =>
          let opponent := (cc_opponent cf, cc_opponent_player cf) in
          let (c, used) := choose_candidate_colour cf (ct_used t) in
          let t2 := with_sched s used t in
          match nth_error (ct_samples t) candidate_number with
          | None => (t2, Err IndexError)
          | Some sample =>
              match transform_parameters cf sample with
              | Err e => (t2, Err e)
              | Ok _ =>
                  (t2, Ok (Some (mkCJ (fst candidate ++ str "r" ++ str_int (Z.of_nat round_id))
                                      (candidate_number, fst candidate, round_id)
                                      (match c with Black => candidate | White => opponent end)
                                      (match c with Black => opponent | White => candidate end))))
              end
          end
      end
  end.

(** The history's formatting (:380-383, 474-500), which calls the transform functions. *)
Fixpoint transform_all (cf : cconfig) (l : list (list Q)) : res unit :=
  match l with
  | [] => Ok tt
  | x :: rest => do _ <- transform_parameters cf x; transform_all cf rest
  end.
Fixpoint nths {A} (l : list A) (is : list nat) : res (list A) :=
  match is with
  | [] => Ok []
  | i :: rest =>
      match nth_error l i with
      | None => Err IndexError
      | Some x => do r <- nths l rest; Ok (x :: r)
      end
  end.

(** :368-389 [finish_generation]: the new distribution. *)
Definition finish_generation (t : ctuner) : res distribution :=
  let cf := ct_conf t in
  let sorted := sorter (ct_wins t) in
  let count := elite_count (cc_elite_proportion cf) (cc_samples cf) in
  do _ <- transform_parameters cf (get_means (ct_distribution t));
  do all <- nths (ct_samples t) (map snd sorted);
  do _ <- transform_all cf all;
  do elite_samples <- nths (ct_samples t) (map snd (firstn count sorted));
  update_distribution (ct_distribution t) elite_samples (cc_step_size cf).

Fixpoint add_nth (i : nat) (n : Z) (l : list Z) : option (list Z) :=
  match l, i with
  | [], _ => None
  | x :: l', O => Some (x + n :: l')
  | x :: l', S i' => match add_nth i' n l' with None => None | Some r => Some (x :: r) end
  end.

Definition opt_eqb (a : option bytes) (b : bytes) : bool :=
  match a with None => false | Some x => bytes_eqb x b end.

Definition with_results (s : gsched) (wins : list Z) (t : ctuner) : ctuner :=
  mkCT (ct_conf t) (ct_generation t) (ct_distribution t) (ct_samples t) wins (ct_candidates t) s true (ct_used t).
Definition with_generation (generation : nat) (d : distribution) (t : ctuner) : ctuner :=
  mkCT (ct_conf t) generation d (ct_samples t) (ct_wins t) (ct_candidates t) (ct_sched t) (ct_seen t) (ct_used t).

(** :443-460 [process_game_result]. *)
Definition process_game_result (r : cresponse) (t : ctuner) : ctuner * res unit :=
  let '(candidate_number, candidate_code, round_id) := cr_data r in
  let (s, x) := gfix (ct_sched t) (group_code candidate_number) round_id in
  let t1 := with_results s (ct_wins t) t in
  match x with
  | Err e => (t1, Err e)
  | Ok _ =>
      if negb (bytes_eqb candidate_code (cr_black r) || bytes_eqb candidate_code (cr_white r)) then (t1, Err AssertionError)
      else
        let points := if opt_eqb (cr_winner r) candidate_code then 2
                      else match cr_winner r with None => 1 | Some _ => 0 end in
        match (if points =? 0 then Some (ct_wins t1) else add_nth candidate_number points (ct_wins t1)) with
        | None => (t1, Err IndexError)
        | Some wins =>
            let t2 := with_results s wins t1 in
            match all_fixed s with
            | Err e => (t2, Err e)
            | Ok false => (t2, Ok tt)
            | Ok true =>
                match finish_generation t2 with
                | Err e => (t2, Err e)
                | Ok d =>
                    let t3 := with_generation (S (ct_generation t2)) d t2 in
                    if Nat.eqb (ct_generation t3) (cc_generations (ct_conf t3)) then (t3, Ok tt)
                    else match reset_for_new_generation t3 with
                         | Err e => (t3, Err e)
                         | Ok t4 => (t4, Ok tt)
                         end
                end
            end
        end
  end.

(** :462-471 [process_game_error]: stop_competition, retry_game. *)
Definition process_game_error (previous_error_count : Z) (t : ctuner) : ctuner * res (bool * bool) :=
  if negb (ct_seen t) || (previous_error_count >? 0) then (t, Ok (true, false)) else (t, Ok (false, true)).
End Tuner.
Arguments cconfig : clear implicits.
Arguments ctuner : clear implicits.
Arguments cjob : clear implicits.
