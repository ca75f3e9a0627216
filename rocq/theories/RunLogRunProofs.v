From Verif Require Import Base Bytes PyStr Dict CommonModel RingModel ReportModel RunLogModel RunLogSpec RunLogProofs.
Open Scope Z_scope.

(** What an operation adds: entries [es] to the log, lines [rs] to the results. *)
Section Grow.
Context {C J : Type}.
Implicit Types x y z : run C J.

Definition grows (x y : run C J) (es : list entry) (rs : list bytes) : Prop :=
  u_log y = u_log x ++ es /\
  match u_presenter x, u_presenter y with
  | None, None => exists sh, u_shown y = u_shown x ++ sh /\ err_lines sh = warnings_of es /\ out_lines sh = [] /\ screens sh = []
  | Some b, Some b' =>
      b_warnings b' = b_warnings b ++ warnings_of es /\ b_results b' = b_results b ++ rs /\
      exists sh, u_shown y = u_shown x ++ sh /\ err_lines sh = [] /\ out_lines sh = warnings_of es
  | _, _ => False
  end.

Lemma grows_trans x y z es rs es' rs' : grows x y es rs -> grows y z es' rs' -> grows x z (es ++ es') (rs ++ rs').
Proof.
  unfold grows. intros [L1 P1] [L2 P2]. split; [rewrite L2, L1, app_assoc; reflexivity|].
  rewrite warnings_app. unfold err_lines, out_lines, screens in *.
  destruct (u_presenter x) as [b|], (u_presenter y) as [b'|], (u_presenter z) as [b''|]; try contradiction.
  - destruct P1 as (W1 & R1 & s1 & S1 & E1 & O1), P2 as (W2 & R2 & s2 & S2 & E2 & O2).
    split; [rewrite W2, W1, app_assoc; reflexivity|]. split; [rewrite R2, R1, app_assoc; reflexivity|].
    exists (s1 ++ s2). rewrite !flat_map_app, E1, E2, O1, O2. split; [rewrite S2, S1, app_assoc; reflexivity|]. split; reflexivity.
  - destruct P1 as (s1 & S1 & E1 & O1 & C1), P2 as (s2 & S2 & E2 & O2 & C2).
    exists (s1 ++ s2). rewrite !flat_map_app, E1, E2, O1, O2, C1, C2. split; [rewrite S2, S1, app_assoc; reflexivity|]. split; [reflexivity|split; reflexivity].
Qed.

Lemma grows_refl x y : u_log y = u_log x -> u_presenter y = u_presenter x -> u_shown y = u_shown x -> grows x y [] [].
Proof.
  intros L P S. unfold grows. rewrite L, P, S, app_nil_r. split; [reflexivity|]. destruct (u_presenter x) as [b|].
  - rewrite !app_nil_r. split; [reflexivity|]. split; [reflexivity|]. exists []. rewrite app_nil_r. split; [reflexivity|split; reflexivity].
  - exists []. rewrite app_nil_r. split; [reflexivity|split; [reflexivity|split; reflexivity]].
Qed.

Lemma grows_log e x : warnings_of [e] = [] -> grows x (log e x) [e] [].
Proof.
  intros W. unfold grows, log. cbn [u_log u_presenter u_shown]. split; [reflexivity|]. rewrite W. destruct (u_presenter x) as [b|].
  - rewrite !app_nil_r. split; [reflexivity|]. split; [reflexivity|]. exists []. rewrite app_nil_r. split; [reflexivity|split; reflexivity].
  - exists []. rewrite app_nil_r. split; [reflexivity|split; [reflexivity|split; reflexivity]].
Qed.

Lemma grows_result s x : grows x (say Results s x) [] [s].
Proof.
  unfold grows, say, p_say. destruct x as [g r l [b|] sh]; cbn [u_log u_presenter u_shown u_ring u_reason b_warnings b_results put_box get_box];
    rewrite !app_nil_r; (split; [reflexivity|]).
  - split; [reflexivity|]. split; [reflexivity|]. exists []. split; [rewrite app_nil_r; reflexivity|split; reflexivity].
  - exists []. split; [rewrite app_nil_r; reflexivity|]. split; [reflexivity|split; reflexivity].
Qed.

(** [say Warnings t] and then [log e], in either order. *)
Lemma grows_warned e t x y : warnings_of [e] = [t] -> u_log y = u_log x ++ [e] ->
  u_presenter y = fst (p_say Warnings t (u_presenter x)) -> u_shown y = u_shown x ++ snd (p_say Warnings t (u_presenter x)) -> grows x y [e] [].
Proof.
  intros W L P S. unfold grows. rewrite L, P, S. split; [reflexivity|]. rewrite W. destruct (u_presenter x) as [b|]; cbn [p_say fst snd put_box get_box b_warnings b_results].
  - split; [reflexivity|]. split; [rewrite app_nil_r; reflexivity|]. exists [OnStdout t]. split; [reflexivity|split; reflexivity].
  - exists [OnStderr t]. split; [reflexivity|]. split; [reflexivity|split; reflexivity].
Qed.
Lemma grows_warn e x : warnings_of [e] = [line_of e] -> grows x (warn e x) [e] [].
Proof.
  intros W. apply (grows_warned e (line_of e)); [exact W| | |]; unfold warn, say, log; cbn [u_presenter u_log u_shown u_ring u_reason];
    destruct (p_say Warnings (line_of e) (u_presenter x)); reflexivity.
Qed.

Lemma ring_warn e x : u_ring (warn e x) = u_ring x.
Proof. unfold warn, say, log. cbn [u_presenter]. destruct (p_say _ _ _). reflexivity. Qed.
Lemma ring_say c s x : u_ring (say c s x) = u_ring x.
Proof. unfold say. destruct (p_say _ _ _). reflexivity. Qed.
Lemma ring_log e x : u_ring (log e x) = u_ring x.
Proof. reflexivity. Qed.
Lemma reason_warn e x : u_reason (warn e x) = u_reason x.
Proof. unfold warn, say, log. cbn [u_presenter]. destruct (p_say _ _ _). reflexivity. Qed.
Lemma reason_say c s x : u_reason (say c s x) = u_reason x.
Proof. unfold say. destruct (p_say _ _ _). reflexivity. Qed.

Lemma warns_fold ts : forall x, grows x (fold_left (fun x t => warn (LWarning t) x) ts x) (map LWarning ts) [] /\
  u_ring (fold_left (fun x t => warn (LWarning t) x) ts x) = u_ring x /\ u_reason (fold_left (fun x t => warn (LWarning t) x) ts x) = u_reason x.
Proof.
  induction ts as [|t ts IH]; intros x; cbn [fold_left map]; [split; [apply grows_refl; reflexivity|split; reflexivity]|].
  destruct (IH (warn (LWarning t) x)) as (G & R1 & R2). rewrite R1, R2, ring_warn, reason_warn. split; [|split; reflexivity].
  exact (grows_trans _ _ _ _ _ _ _ (grows_warn (LWarning t) x eq_refl) G).
Qed.
Lemma notes_fold ts : forall x, grows x (fold_left (fun x t => log (LNote t) x) ts x) (map LNote ts) [] /\
  u_ring (fold_left (fun x t => log (LNote t) x) ts x) = u_ring x /\ u_reason (fold_left (fun x t => log (LNote t) x) ts x) = u_reason x.
Proof.
  induction ts as [|t ts IH]; intros x; cbn [fold_left map]; [split; [apply grows_refl; reflexivity|split; reflexivity]|].
  destruct (IH (log (LNote t) x)) as (G & R1 & R2). rewrite R1, R2. split; [|split; reflexivity].
  exact (grows_trans _ _ _ _ _ _ _ (grows_log (LNote t) x eq_refl) G).
Qed.

Lemma says_fold ts : forall x b, u_presenter x = Some b ->
  fold_left (fun x s => say Status s x) ts x =
  mkRun (u_ring x) (u_reason x) (u_log x) (Some (mkBoxes (b_status b ++ ts) (b_report b) (b_results b) (b_warnings b))) (u_shown x).
Proof.
  induction ts as [|t ts IH]; intros x b P; cbn [fold_left].
  - rewrite app_nil_r. destruct x as [g r l p sh], b as [b1 b2 b3 b4]; cbn [u_presenter] in P. subst p. reflexivity.
  - unfold say at 2. rewrite P. cbn [p_say]. erewrite IH; [|reflexivity].
    cbn [u_ring u_reason u_log u_presenter u_shown put_box get_box b_status b_report b_results b_warnings]. rewrite <- app_assoc, app_nil_r. reflexivity.
Qed.
End Grow.

(** ** The screen *)
Lemma strip_spec t : unended t (strip_newline t).
Proof.
  unfold strip_newline, unended. destruct (rev t) as [|c r] eqn:E.
  - right. split; [reflexivity|]. intros (v & ->). rewrite rev_app_distr in E. discriminate.
  - assert (t = rev r ++ [c]) as T by (rewrite <- (rev_involutive t), E; reflexivity).
    destruct (ceqb_spec c char_lf) as [X|X].
    + left. rewrite T, X. reflexivity.
    + right. split; [reflexivity|]. intros (v & V). rewrite T in V. apply app_inj_tail in V. destruct V as [_ V]. exact (X V).
Qed.

Lemma last_spec {A} n (l : list A) : tail_of n l (last_n n l).
Proof.
  unfold tail_of, last_n. exists (firstn (List.length l - n) l). split; [rewrite firstn_skipn; reflexivity|].
  destruct (le_lt_dec (List.length l) n) as [H|H].
  - left. rewrite skipn_length. replace (List.length l - n)%nat with 0%nat by lia. split; [reflexivity|]. lia.
  - right. rewrite skipn_length. lia.
Qed.
Lemma last_nil {A} n (l : list A) : (1 <= n)%nat -> l <> [] -> last_n n l <> [].
Proof.
  intros N H E. apply (f_equal (@List.length A)) in E. unfold last_n in E. rewrite skipn_length in E.
  destruct l; [congruence|]. cbn [List.length] in E. lia.
Qed.
Lemma join_lines l : l <> [] -> join [char_lf] l ++ [char_lf] = lines l.
Proof.
  induction l as [|x l IH]; [congruence|]. intros _. destruct l as [|y l]; [cbn; rewrite app_nil_r; reflexivity|].
  change (join [char_lf] (x :: y :: l)) with (x ++ [char_lf] ++ join [char_lf] (y :: l)). rewrite <- !app_assoc, IH by discriminate.
  unfold lines. cbn [flat_map]. rewrite <- !app_assoc. reflexivity.
Qed.
Lemma last_all {A} n (l : list A) : (List.length l <= n)%nat -> last_n n l = l.
Proof. intros H. unfold last_n. replace (List.length l - n)%nat with 0%nat by lia. reflexivity. Qed.

Lemma screen_text st rep results warnings : (List.length st <= 999)%nat ->
  screen_says st rep results warnings
    (show_box None 999 true st ++ show_box None 999 true [rep] ++
     show_box (Some (str "Results")) 6 true results ++ show_box (Some (str "Warnings")) 4 false warnings).
Proof.
  intros L. exists (last_n 6 results), (last_n 4 warnings).
  exists (show_box None 999 true st), (show_box (Some (str "Results")) 6 true results), (show_box (Some (str "Warnings")) 4 false warnings).
  split; [apply last_spec|]. split; [apply last_spec|]. split; [|split; [|split]].
  - destruct st as [|s st]; [left; split; reflexivity|right]. split; [discriminate|]. unfold show_box. rewrite last_all by exact L.
    rewrite app_nil_l, !(app_assoc (join _ _)), join_lines by discriminate. reflexivity.
  - destruct results as [|s l]; [left; split; reflexivity|right]. split; [discriminate|]. unfold show_box.
    rewrite !(app_assoc (join _ _)), join_lines by (apply last_nil; [lia|discriminate]). reflexivity.
  - destruct warnings as [|s l]; [left; split; reflexivity|right]. split; [discriminate|]. unfold show_box.
    rewrite !(app_assoc (join _ _)), join_lines by (apply last_nil; [lia|discriminate]). rewrite app_nil_r. reflexivity.
  - assert (show_box None 999 true [rep] = rep ++ [char_lf; char_lf]) as -> by reflexivity. rewrite <- app_assoc. reflexivity.
Qed.
