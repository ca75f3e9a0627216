(** C74: what the cross-entropy tuner's reports, history, event log and game notes say. *)
From Coq Require Import QArith Lqa Permutation Sorted.
From Verif Require Import Base Bytes PyStr CommonModel SgfPropsModel GameplayModel TableModel ReportModel ReportSpec CemModel CemSpec
  CemReportModel CemReportSpec CemDistProofs CemProofs CemTunerProofs CemReportProofs.
From Verif Require CemProps.
Open Scope Z_scope.

Lemma after_inv {V P} (possible : Q -> Q -> Q -> Prop) (cf : cconfig V P) gauss coin calls :
  cusable cf -> (forall k m v, possible m v (gauss k m v)) -> Forall (call_ok possible) calls ->
  exists t now, after possible cf gauss coin calls t (floats_of cf now) now /\ CInv possible cf t now.
Proof.
  intros OK PO F. destruct (clean_inv possible cf OK gauss coin PO) as (t0 & l0 & E0 & I0 & C0).
  destruct (crun_floats_proof possible cf OK calls (t0, None) (l0, None) (no_floats cf)) as ([t st] & es & [l v] & ER & CS & [CI _] & [FL _]).
  { split; [exact C0|exact I]. } { exact F. } { split; [|exact I]. cbn [fst no_floats]. symmetry. apply floats_none. destruct I0 as (ss & _ & ->). reflexivity. }
  cbn [fst snd] in *. exists t, l. split; [|exact CI]. exists t0, st, es, l0, v. auto 10.
Qed.

(** Whatever has happened, both reports can be made. They give the number of the present
    generation (counted from 0), every candidate's points in its finished games of this
    generation, and the present distribution with the engine parameters for its means; it's
    called the final one if all generations have been finished. *)
Theorem C74_reports : forall (V P : Type) (possible : Q -> Q -> Q -> Prop) tie formats show_value rc (cf : cconfig V P) gauss coin calls,
  cusable cf -> (forall k m v, possible m v (gauss k m v)) -> Forall (call_ok possible) calls ->
  exists t floats now screen short, after possible cf gauss coin calls t floats now /\
    screen_report tie formats show_value t floats = Ok screen /\ screen_says formats show_value cf now screen /\
    short_report tie formats show_value rc t floats = Ok short /\ short_says formats show_value cf rc now short.
Proof.
  intros V P possible tie formats show_value rc cf g c calls OK PO F. destruct (after_inv possible cf g c calls OK PO F) as (t & l & A & I).
  destruct (screen_proof possible tie formats show_value cf OK t l I) as (a & EA & TA). destruct (short_proof possible tie formats show_value cf OK rc t l I) as (b & EB & TB).
  exists t, (floats_of cf l), l, a, b. auto 10.
Qed.
Print Assumptions C74_reports.

(** The next result: nothing is written to the history unless the generation is finished
    with it. If it is, what is written are its number, the distribution its candidates were
    drawn from, and all candidates, with their parameters and points, the best ones first
    (candidates with the same points: the later ones first), the elites (and no others)
    marked. The generation number goes up exactly then. *)
Theorem C74_history : forall (V P : Type) (possible : Q -> Q -> Q -> Prop) tie formats show_value (cf : cconfig V P) gauss coin calls,
  cusable cf -> (forall k m v, possible m v (gauss k m v)) -> Forall (call_ok possible) calls ->
  exists t floats now, after possible cf gauss coin calls t floats now /\
    forall r, call_ok possible (DResult r) ->
    exists logged, result_log tie formats show_value r t = Ok logged /\
      let '(i, _, round) := cr_data r in
      (logged = [] /\ ct_generation (fst (process_game_result r t)) = ct_generation t \/
       exists n, half_points r n /\ cl_out now = [(i, round)] /\ ct_generation (fst (process_game_result r t)) = S (ct_generation t) /\
         is_complete cf (end_game i round n [] now) /\ generation_says formats show_value cf (end_game i round n [] now) logged).
Proof.
  intros V P possible tie formats show_value cf g c calls OK PO F. destruct (after_inv possible cf g c calls OK PO F) as (t & l & A & I).
  exists t, (floats_of cf l), l. split; [exact A|]. intros r H. exact (log_proof possible tie formats show_value cf OK t l r I H).
Qed.
Print Assumptions C74_history.

(** The candidates' order, and which are the elites, follow from the points. *)
Theorem C74_order_determined : forall p points order order' elites elites',
  Permutation order order' -> StronglySorted (better points) order -> StronglySorted (better points) order' ->
  elites_of p points elites -> elites_of p points elites' ->
  order = order' /\ Permutation elites elites'.
Proof.
  intros p pts a b e e' PM SA SB EA EB. split; [|exact (elites_unique p pts e e' EA EB)]. revert b PM SB. induction SA as [|x a SA IH FA]; intros b PM SB.
  - apply Permutation_nil in PM. congruence.
  - destruct SB as [|y b SB FB]; [apply Permutation_sym, Permutation_nil in PM; discriminate|].
    assert (x = y) as ->.
    { destruct (Nat.eq_dec x y) as [|N]; [assumption|exfalso].
      assert (In x b) as IX by (pose proof (Permutation_in x PM (or_introl eq_refl)) as [X|X]; [congruence|exact X]).
      assert (In y a) as IY by (pose proof (Permutation_in y (Permutation_sym PM) (or_introl eq_refl)) as [X|X]; [congruence|exact X]).
      rewrite Forall_forall in FA, FB. exact (better_asym pts x y (FA y IY) (FB x IX)). }
    f_equal. apply IH; [exact (Permutation_cons_inv PM)|exact SB].
Qed.
Print Assumptions C74_order_determined.

(** When a game is asked for, "starting generation" is logged if no game of the generation is
    finished or in progress, and otherwise nothing is. *)
Theorem C74_starting : forall (V P : Type) (possible : Q -> Q -> Q -> Prop) (cf : cconfig V P) gauss coin calls,
  cusable cf -> (forall k m v, possible m v (gauss k m v)) -> Forall (call_ok possible) calls ->
  exists t floats now, after possible cf gauss coin calls t floats now /\
    (games now = [] /\ get_log t = [[char_lf] ++ str "starting generation " ++ str_int (Z.of_nat (cl_gen now))] \/
     games now <> [] /\ get_log t = []).
Proof.
  intros V P possible cf g c calls OK PO F. destruct (after_inv possible cf g c calls OK PO F) as (t & l & A & I).
  exists t, (floats_of cf l), l. split; [exact A|]. exact (started_proof possible cf t l I).
Qed.
Print Assumptions C74_starting.

(** The note in a game's record gives the parameters which its candidate's player is made
    from. *)
Theorem C74_note : forall (V P : Type) (possible : Q -> Q -> Q -> Prop) formats show_value (cf : cconfig V P) gauss coin calls,
  cusable cf -> (forall k m v, possible m v (gauss k m v)) -> Forall (call_ok possible) calls ->
  exists t floats now, after possible cf gauss coin calls t floats now /\
    forall t' j, get_game t = (t', Ok (Some j)) ->
    exists sample values p s, let number := fst (fst (cj_data j)) in
      nth_error (cl_samples now) number = Some sample /\ values_for cf sample values /\ cc_maker cf values = Some p /\
      (let candidate := (candidate_code (cl_gen now) number, p) in cj_black j = candidate \/ cj_white j = candidate) /\
      shown_values formats show_value values s /\
      sgf_note formats show_value t number = Ok (str "Candidate parameters: " ++ s).
Proof.
  intros V P possible formats show_value cf g c calls OK PO F. destruct (after_inv possible cf g c calls OK PO F) as (t & l & A & I).
  exists t, (floats_of cf l), l. split; [exact A|]. intros t' j E.
  destruct (get_step possible cf OK t l None t' (Ok (Some j)) I) as (l' & C & _); [discriminate|exact E|].
  inversion C as [? ? i rd j' NG JF| | | | | | | | | |]; subst.
  destruct (note_proof possible formats show_value cf OK t l i rd j I JF) as (sample & values & p & s & H1 & H2 & H3 & H4 & H5 & H6).
  assert (fst (fst (cj_data j)) = i) as EI. { destruct JF as (? & ? & ? & _ & _ & _ & _ & ED & _). rewrite ED. reflexivity. }
  exists sample, values, p, s. cbv zeta in *. rewrite EI in *. auto 10.
Qed.
Print Assumptions C74_note.

(** ** Example: the competition of C43, with a drawn game. *)
Definition demo_formats : list (bytes * (Q -> option bytes)) :=
  [(str "p", fun v => Some (str "p=" ++ qfixed2 (fun _ _ => false) v))].
Definition demo_show (_ : Q) : bytes := str "?".
Definition demo_drawn (g i t : nat) : cresponse :=
  mkCR (game_id g i t) (i, candidate_code g i, t) (candidate_code g i) (str "opp") None.
Definition demo_calls : list ccall :=
  [DGet; DGet; DResult (CemProps.demo_result 0 1 0 true); DGet; DResult (demo_drawn 0 0 0); DSave; DGet;
   DRestart CemProps.demo_gauss (fun _ => true); DGet; DGet; DResult (CemProps.demo_result 0 1 1 true)].
Example C74_demo_calls : cusable CemProps.demo_cem /\ Forall (call_ok CemProps.demo_possible) demo_calls.
Proof.
  split; [exact (proj1 CemProps.C43_demo_usable)|].
  unfold demo_calls. repeat (apply Forall_cons; [cbn; try exact I; try (left; reflexivity); exact (proj2 CemProps.C43_demo_usable)|]). constructor.
Qed.
Definition demo_text (l : list string) : bytes := List.concat (map (fun s => str s ++ [char_lf]) l).
(** Candidate 0 has a draw; then it wins its second game, and the generation is finished. *)
Example C74_demo :
  match set_clean_status (with_random CemProps.demo_gauss (fun _ => true) CemProps.demo_cem) with
  | Ok t0 =>
      match crun CemProps.demo_cem (t0, None) demo_calls with
      | Some (t, _, es) =>
          let f := crun_floats CemProps.demo_cem (t0, None) demo_calls (no_floats CemProps.demo_cem) in
          let r := CemProps.demo_result 0 0 1 true in
          let t' := fst (process_game_result r t) in
          short_report (fun _ _ => false) demo_formats demo_show (mkRC (str "tune") None 9 (75, 1%nat)) t (fst f)
            = Ok (demo_text ["CEM tuning event: tune"; "board size: 9"; "komi: 7.5"; "generation 0"; ""; "wins from current samples:"; "[0.5, 2]"; "";
                             "distribution for generation 0:"; "p=0.00"; " 0.00~1.00"]%string) /\
          result_log (fun _ _ => false) demo_formats demo_show r t
            = Ok [str "Generation 0"; str "Distribution" ++ [char_lf] ++ str "p=0.00" ++ [char_lf] ++ str " 0.00~1.00";
                  str "g0#1* p=-1.00   2" ++ [char_lf] ++ str "g0#0  p=1.00   1"; []] /\
          get_log t0 = [[char_lf] ++ str "starting generation 0"] /\ get_log t = [] /\
          get_log t' = [[char_lf] ++ str "starting generation 1"] /\
          sgf_note demo_formats demo_show t' 1 = Ok (str "Candidate parameters: p=-1.50") /\
          screen_report (fun _ _ => false) demo_formats demo_show t' (result_floats r t (fst f))
            = Ok (demo_text ["generation 1"; ""; "wins from current samples:"; "[0, 0]"; "";
                             "distribution for generation 1:"; "p=-0.50"; "-0.50~0.50"]%string)
      | None => False
      end
  | Err _ => False
  end.
Proof. vm_compute. repeat split. Qed.
