(** Proofs for C73: the texts. *)
From Coq Require Import QArith Permutation Sorted.
From Verif Require Import Base Bytes PyStr Dict CommonModel SgfPropsModel SchedModel SchedSpec SchedProofs GameplayModel TableModel ReportModel SgfValueProofs ReportTextProofs MctsModel MctsSpec MctsCellProofs MctsTreeProofs MctsProofs MctsLedgerProofs MctsReportModel MctsReportSpec MctsOrderProofs.
Open Scope Z_scope.

Lemma fixed3_shown tie n d : 0 < d -> 0 <= n -> shows3 n d (fixed3 tie n d).
Proof.
  intros D N. unfold fixed3. rewrite Z.abs_eq by exact N. destruct (Z.ltb_spec n 0); [lia|]. cbn [app].
  destruct (nearest_near tie (1000 * n) d D ltac:(lia)) as [P Q]. set (q := nearest tie (1000 * n) d) in *.
  assert (BB : 0 <= q mod 1000 < 1000) by (apply Z.mod_pos_bound; lia).
  exists q, (zfill 3 (str_int (q mod 1000))). split; [exact P|]. split; [exact Q|]. split; [reflexivity|].
  destruct (zfill_exact 3 (q mod 1000) ltac:(exact BB) ltac:(lia)) as (L2 & D2 & V2). split; [exact L2|]. split; [|exact V2].
  apply Forall_forall. rewrite forallb_forall in D2. exact D2.
Qed.

Lemma say_written l : List.concat (map (fun x => say x) l) = written l.
Proof. reflexivity. Qed.
Lemma written_app a b : written (a ++ b) = written a ++ written b.
Proof. unfold written. rewrite map_app, concat_app. reflexivity. Qed.
Lemma written_cons a b : written (a :: b) = say a ++ written b.
Proof. reflexivity. Qed.

Section Texts.
Context {V P : Type}.
Variable tie : Z -> Z -> bool.
Variable formats : list (bytes * (V -> option bytes)).
Variable show_value : V -> bytes.
Variable cf : mconfig V P.
Hypothesis cf_ok : usable cf.
Notation tp := (mc_tree cf).
Notation b := (branching (tp_splits tp)).
Notation valid := (Forall (fun i => (i < b)%nat)).

Lemma step_proof i : (i < b)%nat -> exists s, describe_choice tp i = Ok s /\ step_text (tp_splits tp) i s.
Proof.
  intros L. rewrite branching_product in L. pose proof (coordinates_child _ (proj1 cf_ok) i L) as C. unfold describe_choice.
  pose proof (proj2 (nth_cube _ _ _ (proj1 cf_ok)) C) as E. rewrite E. eexists. split; [reflexivity|]. exists (coordinates (tp_splits tp) i). split; [exact C|].
  unfold coords_text. destruct (coordinates (tp_splits tp) i) as [|x [|y r]]; reflexivity.
Qed.

Lemma steps_proof path : valid path -> exists ts, describe_choices tp path = Ok ts /\ Forall2 (step_text (tp_splits tp)) path ts.
Proof.
  induction 1 as [|i path L F IH]; [exists []; split; [reflexivity|constructor]|]. destruct (step_proof i L) as (s & E & S). destruct IH as (ts & E2 & F2).
  exists (s :: ts). cbn [describe_choices]. rewrite E. cbn [bind]. rewrite E2. split; [reflexivity|constructor; assumption].
Qed.

Lemma words_proof fs : forall vs : list V, Forall2 (fun fv t => value_text show_value (fst fv) (snd fv) t) (combine fs vs) (zip_with (format_value show_value) fs vs).
Proof.
  induction fs as [|f fs IH]; intros [|v vs]; cbn; try constructor; [|apply IH]. unfold value_text, format_value. cbn [fst snd].
  destruct (snd f v) as [s|]; [left; reflexivity|right; split; reflexivity].
Qed.

Lemma params_proof path : valid path -> exists s, format_path formats show_value cf path = Ok s /\ params_text formats show_value cf path s.
Proof.
  intros F. destruct (path_cell cf cf_ok path F (unit_cube (tp_splits tp))) as (r & C & _); [unfold unit_cube; apply map_length|].
  destruct (parameters_middle tp path r (proj1 cf_ok) C) as (l & E & M).
  destruct (scale_total (mc_scales cf) l) as (vs & EV & FV); [apply cf_ok|].
  unfold format_path. rewrite E. cbn [bind]. unfold scale_parameters. rewrite EV. cbn [bind]. eexists. split; [reflexivity|].
  exists vs, (zip_with (format_value show_value) formats vs). split; [|split; [apply words_proof|reflexivity]].
  exists l, r. auto.
Qed.

Lemma sim_proof path won : valid path -> exists s, describe_simulation formats show_value cf path won = Ok s /\
  sim_text formats show_value cf path (match won with None => [] | Some false => str " lost" | Some true => str " won" end) s.
Proof.
  intros F. destruct (params_proof path F) as (a & EA & TA). destruct (steps_proof path F) as (ts & ET & TT).
  unfold describe_simulation, describe_steps. rewrite EA. cbn [bind]. rewrite ET. cbn [bind]. eexists. split; [reflexivity|]. exists a, ts. auto.
Qed.

Variable root : node.
Variable l : ledger.
Hypothesis l_shows : shows tp root l.
Hypothesis root_wf : wf b root.
Hypothesis visits_pos : 0 < tp_initial_visits tp.
Hypothesis wins_nonneg : 0 <= tp_initial_wins tp.

Lemma at_valid p x : node_at p root = Some x -> valid p.
Proof. intros E. exact (proj2 (wf_at _ _ _ _ root_wf E)). Qed.
Lemma at_counts p x : node_at p root = Some x -> n_visits x = tp_initial_visits tp + games l p /\ n_wins x = tp_initial_wins tp + wins l p.
Proof. intros E. exact (proj1 l_shows p x E). Qed.
Lemma count_nonneg {A} (f : A -> bool) m : 0 <= count f m.
Proof. unfold count. lia. Qed.

Lemma rate_proof p x : node_at p root = Some x -> rate_text cf l p (fixed3 tie (n_wins x) (n_visits x)).
Proof.
  intros E. destruct (at_counts p x E) as [EV EW]. unfold rate_text. rewrite <- EV, <- EW.
  pose proof (count_nonneg (passes_through p) (l_done l)). pose proof (count_nonneg (won_through p) (l_done l)). unfold games, wins in *.
  apply fixed3_shown; lia.
Qed.
Lemma visits_proof p x : node_at p root = Some x -> n_visits x - tp_initial_visits tp = games l p.
Proof. intros E. destruct (at_counts p x E). lia. Qed.

Lemma line_proof p x : node_at p root = Some x -> exists s, summary_line tie formats show_value cf (p, x) = Ok s /\ node_line formats show_value cf l p s.
Proof.
  intros E. pose proof (at_valid p x E) as F. destruct (params_proof p F) as (a & EA & TA). destruct (steps_proof p F) as (ts & ET & TT).
  unfold summary_line. rewrite EA. cbn [bind]. rewrite ET. cbn [bind]. eexists. split; [reflexivity|]. exists a, ts, (fixed3 tie (n_wins x) (n_visits x)).
  split; [exact TA|]. split; [exact TT|]. split; [apply rate_proof; exact E|]. rewrite (visits_proof p x E). reflexivity.
Qed.

Lemma all_lines_proof {A} (f : A -> res bytes) (T : A -> bytes -> Prop) xs : (forall x, In x xs -> exists s, f x = Ok s /\ T x s) ->
  exists ls, all_lines f xs = Ok (written ls) /\ Forall2 T xs ls.
Proof.
  induction xs as [|x xs IH]; intros H; [exists []; split; [reflexivity|constructor]|].
  destruct (H x (or_introl eq_refl)) as (s & E & TS). destruct IH as (ls & E2 & F); [intros; apply H; right; assumption|].
  exists (s :: ls). cbn [all_lines]. rewrite E. cbn [bind]. rewrite E2. split; [reflexivity|constructor; assumption].
Qed.

Lemma Forall2_fst {A B C} (T : A -> C -> Prop) (xs : list (A * B)) ls : Forall2 (fun x s => T (fst x) s) xs ls -> Forall2 T (map fst xs) ls.
Proof. induction 1; constructor; auto. Qed.

Lemma summary_proof spec : forall k g, gen root k g ->
  exists s, summary_from tie formats show_value cf k g spec = Ok s /\ summary_says formats show_value cf root l (S k) spec s.
Proof.
  induction spec as [|n spec IH]; intros k g G; [exists []; split; [reflexivity|constructor]|].
  pose proof (gen_next root k g G) as G1. cbn [summary_from]. cbv zeta.
  pose proof (selected root (S k) _ (Z.to_nat n) G1) as SEL. cbv zeta in SEL. set (sel := sort_paths (nlargest (Z.to_nat n) (next_generation g))) in *.
  destruct SEL as (S1 & S2 & S3 & S4).
  destruct (all_lines_proof (summary_line tie formats show_value cf) (fun px s => node_line formats show_value cf l (fst px) s) sel) as (ls & E & F).
  { intros [p x] I. apply line_proof. apply S2. exact I. }
  rewrite E. cbn [bind]. destruct (IH (S k) _ G1) as (rest & ER & SR). rewrite ER. cbn [bind]. eexists. split; [reflexivity|].
  match goal with |- summary_says _ _ _ _ _ _ _ ?t => replace t with (written ((str "most visited at depth " ++ str_int (Z.of_nat (S k))) :: ls ++ [[]]) ++ rest) end.
  2:{ rewrite written_cons, written_app. unfold written at 2. cbn [map List.concat]. rewrite app_nil_r, <- !app_assoc. reflexivity. }
  apply sum_cons with (sel := map fst sel); [|apply Forall2_fst; exact F|exact SR].
  split; [exact S1|]. split; [|split].
  - intros p I. apply in_map_iff in I. destruct I as ([p' x] & <- & I). destruct (S2 _ _ I) as [L EN]. split; [exact L|]. unfold in_tree. cbn [fst]. congruence.
  - rewrite map_length. exact S3.
  - intros q LQ IQ NQ. unfold in_tree in IQ. destruct (node_at q root) as [y|] eqn:EQ; [|congruence]. rewrite map_length.
    destruct (S4 q y LQ EQ NQ) as [LN A]. split; [exact LN|]. apply Forall_forall. intros p I. apply in_map_iff in I. destruct I as ([p' x] & <- & I). cbn [fst].
    destruct (S2 _ _ I) as [_ EN]. pose proof (A _ _ I) as R. unfold rank_before in R. cbn [fst snd] in R. unfold ahead.
    destruct (at_counts _ _ EN) as [V1 _]. destruct (at_counts _ _ EQ) as [V2 _]. destruct R as [R|[R1 R2]]; [left; lia|right; split; [lia|exact R2]].
Qed.

(** ** The dump *)
Lemma row_proof p0 i x : node_at (p0 ++ [i]) root = Some x ->
  exists s, tree_line tie formats show_value cf p0 i x = Ok s /\ tree_row formats show_value cf l (p0 ++ [i]) (repeat " "%char (2 * List.length (p0 ++ [i])) ++ s).
Proof.
  intros E. pose proof (at_valid _ x E) as F. destruct (params_proof _ F) as (a & EA & TA).
  assert (LI : (i < b)%nat). { apply Forall_app in F. destruct F as [_ F]. inversion F; assumption. }
  destruct (step_proof i LI) as (t & ET & TT). unfold tree_line. rewrite EA. cbn [bind]. rewrite ET. cbn [bind]. eexists. split; [reflexivity|].
  exists i, p0, a, t, (fixed3 tie (n_wins x) (n_visits x)). split; [reflexivity|]. split; [exact TA|]. split; [exact TT|]. split; [apply rate_proof; exact E|].
  rewrite (visits_proof _ x E). reflexivity.
Qed.

Lemma lines_of_proof {A} (f : A -> res (list bytes)) (ps : A -> list (list nat)) (T : list nat -> bytes -> Prop) xs :
  (forall x, In x xs -> exists s, f x = Ok s /\ Forall2 T (ps x) s) ->
  exists ls, lines_of f xs = Ok ls /\ Forall2 T (flat_map ps xs) ls.
Proof.
  induction xs as [|x xs IH]; intros H; [exists []; split; [reflexivity|constructor]|].
  destruct (H x (or_introl eq_refl)) as (s & E & TS). destruct IH as (ls & E2 & F); [intros; apply H; right; assumption|].
  exists (s ++ ls). cbn [lines_of flat_map]. rewrite E. cbn [bind]. rewrite E2. split; [reflexivity|]. apply Forall2_app; assumption.
Qed.

Definition kids (x : node) : list (nat * node) := match n_children x with None => [] | Some cs => enumerate cs end.
Lemma kids_in x i c : In (i, c) (kids x) <-> exists cs, n_children x = Some cs /\ nth_error cs i = Some c.
Proof.
  unfold kids. destruct (n_children x) as [cs|]; [rewrite enumerate_in; split; [intros; exists cs; auto|intros (cs' & E & H); congruence]|].
  split; [intros []|]. intros (cs & E & _). discriminate.
Qed.
Lemma kids_at p x i c : node_at p root = Some x -> (In (i, c) (kids x) <-> node_at (p ++ [i]) root = Some c).
Proof.
  intros E. rewrite kids_in, node_at_app, E, node_at_one. destruct (n_children x) as [cs|]; [|split; [intros (cs & H & _)|]; discriminate].
  split; [intros (cs' & H & G); injection H as <-; exact G|]. intros H. exists cs. auto.
Qed.
Lemma kids_sorted x : StronglySorted lt (map fst (kids x)).
Proof. unfold kids. destruct (n_children x); [apply enumerate_spec|constructor]. Qed.

Definition dump_paths : list (list nat) :=
  flat_map (fun ic => [fst ic] :: map (fun jc => [fst ic; fst jc]) (kids (snd ic))) (kids root).

Lemma dump_in p : In p dump_paths <-> (1 <= List.length p <= 2)%nat /\ in_tree root p.
Proof.
  unfold dump_paths, in_tree. rewrite in_flat_map. split.
  - intros ([i c] & IC & H). pose proof (proj1 (kids_at [] root i c eq_refl) IC) as EC. cbn [app] in EC. cbn [fst snd] in H. destruct H as [<-|H].
    + split; [cbn; lia|]. congruence.
    + apply in_map_iff in H. destruct H as ([j d] & <- & ID). cbn [fst]. pose proof (proj1 (kids_at [i] c j d EC) ID) as ED. cbn [app] in ED. split; [cbn; lia|]. congruence.
  - intros [L N]. destruct p as [|i p]; [cbn in L; lia|]. destruct (node_at [i] root) as [c|] eqn:EC.
    2:{ destruct N. change (i :: p) with ([i] ++ p). rewrite node_at_app, EC. reflexivity. }
    exists (i, c). split; [apply (kids_at [] root i c eq_refl); exact EC|]. cbn [fst snd]. destruct p as [|j [|k p]]; [left; reflexivity| |cbn in L; lia].
    right. destruct (node_at [i; j] root) as [d|] eqn:ED; [|congruence]. apply in_map_iff. exists (j, d). split; [reflexivity|]. apply (kids_at [i] c j d EC). exact ED.
Qed.

Lemma dump_sorted : StronglySorted before dump_paths.
Proof.
  unfold dump_paths. pose proof (kids_sorted root) as S. induction (kids root) as [|[i c] ks IH]; [constructor|]. cbn [map fst] in S. destruct (sorted_cons_inv _ _ _ S) as [S' F].
  cbn [flat_map fst snd]. apply sorted_app; [|apply IH; exact S'|].
  - constructor.
    + apply sorted_map. pose proof (kids_sorted c) as SC. rewrite sorted_map in SC. clear -SC. induction SC as [|x m SC IH F]; constructor; [exact IH|].
      eapply Forall_impl; [|exact F]. intros [j d] H. cbn [fst] in *. apply before_cons. right. split; [reflexivity|]. apply before_cons. left. exact H.
    + rewrite Forall_map. apply Forall_forall. intros jd _. apply before_cons. right. split; [reflexivity|]. apply before_first.
  - intros p q IP IQ. apply in_flat_map in IQ. destruct IQ as ([i' c'] & IK & IQ). cbn [fst snd] in IQ.
    assert (LI : (i < i')%nat). { rewrite Forall_forall in F. apply F. apply in_map_iff. exists (i', c'). auto. }
    assert (EP : exists r, p = i :: r). { destruct IP as [<-|IP]; [exists []; reflexivity|]. apply in_map_iff in IP. destruct IP as (jd & <- & _). eexists. reflexivity. }
    assert (EQ : exists r, q = i' :: r). { destruct IQ as [<-|IQ]; [exists []; reflexivity|]. apply in_map_iff in IQ. destruct IQ as (jd & <- & _). eexists. reflexivity. }
    destruct EP as (r & ->). destruct EQ as (r' & ->). apply before_cons. left. exact LI.
Qed.

Lemma tree_proof : exists s, describe_tree tie formats show_value cf root (count_tree_size root) = Ok s /\ tree_says formats show_value cf root l s.
Proof.
  unfold describe_tree. cbv zeta.
  destruct (lines_of_proof (fun ic : nat * node =>
      do a <- tree_line tie formats show_value cf [] (fst ic) (snd ic);
      do b <- lines_of (fun jc => do a <- tree_line tie formats show_value cf [fst ic] (fst jc) (snd jc); Ok [str "    " ++ a]) (kids (snd ic));
      Ok ((str "  " ++ a) :: b)) (fun ic => [fst ic] :: map (fun jc => [fst ic; fst jc]) (kids (snd ic))) (tree_row formats show_value cf l) (kids root)) as (rows & E & F).
  { intros [i c] IC. cbn [fst snd]. pose proof (proj1 (kids_at [] root i c eq_refl) IC) as EC. cbn [app] in EC. destruct (row_proof [] i c EC) as (a & EA & TA). rewrite EA. cbn [bind].
    destruct (lines_of_proof (fun jc : nat * node => do a <- tree_line tie formats show_value cf [i] (fst jc) (snd jc); Ok [str "    " ++ a]) (fun jc => [[i; fst jc]]) (tree_row formats show_value cf l) (kids c)) as (bs & EB & FB).
    { intros [j d] ID. cbn [fst snd]. pose proof (proj1 (kids_at [i] c j d EC) ID) as ED. destruct (row_proof [i] j d ED) as (a2 & EA2 & TA2). rewrite EA2. cbn [bind].
      eexists. split; [reflexivity|]. constructor; [exact TA2|constructor]. }
    rewrite EB. cbn [bind]. eexists. split; [reflexivity|]. constructor; [exact TA|].
    replace (map (fun jc => [i; fst jc]) (kids c)) with (flat_map (fun jc : nat * node => [[i; fst jc]]) (kids c)); [exact FB|].
    clear. induction (kids c) as [|x m IH]; [reflexivity|]. cbn. rewrite IH. reflexivity. }
  unfold kids in E.
  rewrite E. cbn [bind]. destruct (at_counts [] root eq_refl) as [EV EW]. replace (n_wins root - tp_initial_wins tp) with (wins l []) by lia. rewrite (visits_proof [] root eq_refl).
  eexists. split; [reflexivity|]. exists dump_paths, rows. eexists. split; [exact dump_sorted|]. split; [exact dump_in|]. split; [exact F|]. split; [|reflexivity].
  pose proof (count_nonneg (passes_through []) (l_done l)). pose proof (count_nonneg (won_through []) (l_done l)). unfold games, wins in *.
  destruct (Z.eqb_spec (count (passes_through []) (l_done l)) 0) as [Z0|Z0]; [left; auto|]. right. split; [exact Z0|]. apply fixed3_shown; lia.
Qed.
End Texts.
