From Verif Require Import Base Bytes PyStr GtpModel TableModel TableSpec TableProofs TableMainProofs.

Lemma longest_fun t i a b : longest t i a -> longest t i b -> a = b.
Proof.
  intros [A (r & Lr & Er)] [B (q & Lq & Eq)]. specialize (A q Lq). specialize (B r Lr). lia.
Qed.

Lemma first_column_step hs : Forall (fun h => (1 <= snd h)%nat) hs -> forall k j h span h' span',
  nth_error hs k = Some (h, span) -> nth_error hs j = Some (h', span') -> (k < j)%nat ->
  (first_column hs k + span <= first_column hs j)%nat.
Proof.
  induction 1 as [|[h0 s0] hs H F IH]; intros k j h span h' span' EK EJ L.
  - destruct k; discriminate.
  - destruct j as [|j]; [lia|]. destruct k as [|k].
    + injection EK as -> ->. cbn [first_column]. lia.
    + cbn [first_column]. simpl in EK, EJ. specialize (IH k j h span h' span' EK EJ ltac:(lia)). lia.
Qed.

Lemma widths_unique t w w' : headings_span t -> fitting t w -> fitting t w' ->
  (covered (tb_headings t) <= List.length (tb_columns t))%nat ->
  forall i, (i < List.length (tb_columns t))%nat -> w i = w' i.
Proof.
  intros FS [R1 C1] [R2 C2] CV.
  (* inside a group *)
  assert (IN : forall v k h span j, fitting t v -> nth_error (tb_headings t) k = Some (h, span) ->
    (first_column (tb_headings t) k < j < first_column (tb_headings t) k + span)%nat -> (j < List.length (tb_columns t))%nat ->
    exists m, longest t j m /\ v j = m).
  { intros v k h span j [_ C] EK RJ LJ. destruct (C j LJ) as (m & LG & [E|(_ & k' & h' & span' & EK' & EJ & _)]); [exists m; split; assumption|].
    exfalso. destruct (lt_eq_lt_dec k k') as [[L| ->]|L].
    - pose proof (first_column_step _ FS k k' _ _ _ _ EK EK' L). lia.
    - lia.
    - pose proof (first_column_step _ FS k' k _ _ _ _ EK' EK L). unfold headings_span in FS; rewrite Forall_forall in FS.
      pose proof (FS _ (nth_error_In _ _ EK')) as G. simpl in G. lia. }
  assert (END : forall k h span, nth_error (tb_headings t) k = Some (h, span) ->
    (first_column (tb_headings t) k + span <= List.length (tb_columns t))%nat).
  { intros k h span EK. apply Nat.le_trans with (covered (tb_headings t)); [|exact CV]. clear - EK. revert k EK.
    induction (tb_headings t) as [|[h0 s0] hs IH]; intros [|k] E; simpl in *; try discriminate.
    - injection E as -> ->. lia.
    - specialize (IH k E). lia. }
  assert (ONE : forall v v', fitting t v -> fitting t v' -> forall i, (i < List.length (tb_columns t))%nat ->
    forall m, longest t i m -> v i = m -> (m < v' i)%nat -> False).
  { intros v v' F F' i Li m LG E L. destruct F' as [R' C']. destruct (C' i Li) as (m' & LG' & H).
    rewrite (longest_fun t i m' m LG' LG) in *. destruct H as [H|(_ & k & h & span & EK & EI & ST)]; [lia|].
    assert (S1 : (1 <= span)%nat) by (unfold headings_span in FS; rewrite Forall_forall in FS; apply (FS _ (nth_error_In _ _ EK))).
    pose proof (proj1 F k h span EK) as ROOM. cbv zeta in ROOM. rewrite <- EI in ROOM.
    pose proof (END k h span EK) as EN. rewrite <- EI in EN.
    destruct span as [|sp]; [lia|].
    pose proof (start_diff_ext (padding_of t) v v' (S i) sp) as D.
    assert (D' : (start (padding_of t) v (S i + sp) + start (padding_of t) v' (S i) =
                  start (padding_of t) v' (S i + sp) + start (padding_of t) v (S i))%nat).
    { apply D. intros j Lj.
      destruct (IN v k h (S sp) j F EK) as (a & LA & EA); [lia|lia|].
      destruct (IN v' k h (S sp) j (conj R' C') EK) as (b & LB & EB); [lia|lia|].
      pose proof (longest_fun t j a b LA LB). congruence. }
    cbn [start] in D'. replace (S i + sp)%nat with (i + S sp)%nat in D' by lia. lia. }
  intros i Li. destruct (C1 i Li) as (m & LG & H1). destruct (C2 i Li) as (m2 & LG2 & H2).
  rewrite (longest_fun t i m2 m LG2 LG) in *. clear LG2.
  destruct H1 as [H1|(G1 & k & h & span & EK & EI & ST)].
  - destruct H2 as [H2|(G2 & _)]; [congruence|]. exfalso. exact (ONE w w' (conj R1 C1) (conj R2 C2) i Li m LG H1 G2).
  - destruct H2 as [H2|(G2 & k' & h' & span' & EK' & EI' & ST')].
    + exfalso. exact (ONE w' w (conj R2 C2) (conj R1 C1) i Li m LG H2 G1).
    + assert (k = k').
      { destruct (lt_eq_lt_dec k k') as [[L|E]|L]; [|exact E|]; exfalso;
          unfold headings_span in FS; rewrite Forall_forall in FS.
        - pose proof (FS _ (nth_error_In _ _ EK)) as G. simpl in G.
          pose proof (first_column_step _ (proj2 (Forall_forall _ _) FS) k k' _ _ _ _ EK EK' L). lia.
        - pose proof (FS _ (nth_error_In _ _ EK')) as G. simpl in G.
          pose proof (first_column_step _ (proj2 (Forall_forall _ _) FS) k' k _ _ _ _ EK' EK L). lia. }
      subst k'. assert (h' = h /\ span' = span) as [-> ->] by (rewrite EK in EK'; injection EK' as -> ->; split; reflexivity).
      assert (S1 : (1 <= span)%nat) by (unfold headings_span in FS; rewrite Forall_forall in FS; apply (FS _ (nth_error_In _ _ EK))).
      pose proof (END k h span EK) as EN. rewrite <- EI in EN. destruct span as [|sp]; [lia|].
      pose proof (start_diff_ext (padding_of t) w w' (S i) sp) as D.
      assert (D' : (start (padding_of t) w (S i + sp) + start (padding_of t) w' (S i) =
                    start (padding_of t) w' (S i + sp) + start (padding_of t) w (S i))%nat).
      { apply D. intros j Lj.
        destruct (IN w k h (S sp) j (conj R1 C1) EK) as (a & LA & EA); [lia|lia|].
        destruct (IN w' k h (S sp) j (conj R2 C2) EK) as (b & LB & EB); [lia|lia|].
        pose proof (longest_fun t j a b LA LB). congruence. }
      cbn [start] in D'. replace (S i + sp)%nat with (i + S sp)%nat in D' by lia. lia.
Qed.

Lemma nth_blank_app (a b : bytes) : (List.length a <= List.length b)%nat ->
  (forall p, nth p a " "%char = nth p b " "%char) -> b = a ++ repeat " "%char (List.length b - List.length a).
Proof.
  intros L H. apply (nth_ext _ _ " "%char " "%char).
  - rewrite app_length, repeat_length. lia.
  - intros p Lp. destruct (le_lt_dec (List.length a) p) as [G|G].
    + rewrite app_nth2 by exact G. rewrite nth_repeat. rewrite <- H. apply nth_overflow. exact G.
    + rewrite app_nth1 by exact G. symmetry. apply H.
Qed.

Lemma placed_at items full p : placed items full ->
  (exists q s, In (q, s) items /\ (q <= p < q + List.length s)%nat /\ nth p full " "%char = nth (p - q) s " "%char) \/
  ((forall q s, In (q, s) items -> ~ (q <= p < q + List.length s)%nat) /\ nth p full " "%char = " "%char).
Proof.
  intros [A B].
  assert (D : (exists q s, In (q, s) items /\ (q <= p < q + List.length s)%nat) \/
              (forall q s, In (q, s) items -> ~ (q <= p < q + List.length s)%nat)).
  { clear. induction items as [|[q s] items IH]; [right; intros ? ? []|].
    destruct IH as [(a & b & I & H)|N]; [left; exists a, b; split; [right; exact I|exact H]|].
    destruct (le_lt_dec q p) as [G|G]; [destruct (le_lt_dec (q + List.length s) p) as [G2|G2]|].
    - right. intros a b [E|I]; [injection E as <- <-; lia|apply N; exact I].
    - left. exists q, s. split; [left; reflexivity|lia].
    - right. intros a b [E|I]; [injection E as <- <-; lia|apply N; exact I]. }
  destruct D as [(q & s & I & H)|N].
  - left. exists q, s. split; [exact I|]. split; [exact H|]. specialize (A q s (p - q)%nat I ltac:(lia)).
    replace (q + (p - q))%nat with p in A by lia.
    destruct (nth_error s (p - q)) as [c|] eqn:E; [|apply nth_error_None in E; lia].
    rewrite (nth_error_nth _ _ _ A), (nth_error_nth _ _ _ E). reflexivity.
  - right. split; [exact N|]. destruct (nth_error full p) as [c|] eqn:E.
    + rewrite (nth_error_nth _ _ _ E). destruct (B p c E) as [H|(q & s & I & H)]; [exact H|exfalso; exact (N q s I H)].
    + apply nth_overflow. apply nth_error_None. exact E.
Qed.

Lemma placed_same items full full' x y : placed items full -> placed items full' ->
  trimmed full x -> trimmed full' y -> x = y.
Proof.
  intros P P' T T'.
  assert (H : forall p, nth p full " "%char = nth p full' " "%char).
  { intros p. destruct P as [A B]. destruct P' as [A' B'].
    destruct (placed_at items full p (conj A B)) as [(q & s & I & H & E)|(N & E)].
    - rewrite E. specialize (A' q s (p - q)%nat I ltac:(lia)). replace (q + (p - q))%nat with p in A' by lia.
      destruct (nth_error s (p - q)) as [c|] eqn:X; [|apply nth_error_None in X; lia].
      rewrite (nth_error_nth _ _ _ A'), (nth_error_nth _ _ _ X). reflexivity.
    - rewrite E. destruct (placed_at items full' p (conj A' B')) as [(q & s & I & H & _)|(_ & E')]; [exfalso; exact (N q s I H)|congruence]. }
  assert (G : forall a b u v : bytes, (List.length a <= List.length b)%nat -> (forall p, nth p a " "%char = nth p b " "%char) ->
    trimmed a u -> trimmed b v -> u = v).
  { intros a b u v L HH TA TB. rewrite (nth_blank_app a b L HH) in TB. destruct TA as (ws & E & F & N).
    apply (trimmed_fun (a ++ repeat " "%char (List.length b - List.length a))); [|exact TB].
    exists (ws ++ repeat " "%char (List.length b - List.length a)). split; [rewrite E, app_assoc; reflexivity|]. split; [|exact N].
    apply Forall_app. split; [exact F|]. apply Forall_forall. intros c I. apply repeat_spec in I. subst c. reflexivity. }
  destruct (le_lt_dec (List.length full) (List.length full')) as [L|L].
  - exact (G full full' x y L H T T').
  - symmetry. apply (G full' full y x); [lia|intros p; symmetry; apply H|exact T'|exact T].
Qed.

Lemma forall2_same {A B} (P Q : A -> B -> Prop) l : forall m m', Forall2 P l m -> Forall2 Q l m' ->
  (forall x a b, In x l -> P x a -> Q x b -> a = b) -> m = m'.
Proof.
  induction l as [|x l IH]; intros m m' F F' H; inversion F; inversion F'; subst; [reflexivity|].
  f_equal; [apply (H x); [left; reflexivity|assumption|assumption]|]. apply IH; [assumption|assumption|]. intros z a b I. apply H. right. exact I.
Qed.

Lemma unique_proof t a b : headings_span t -> complete t -> rendering t a -> rendering t b -> a = b.
Proof.
  intros FS [_ CV] (w & items & full & title & rows & FT & HI & HP & HT & RW & ->)
    (w' & items' & full' & title' & rows' & FT' & HI' & HP' & HT' & RW' & ->).
  assert (W : forall i, (i < List.length (tb_columns t))%nat -> w i = w' i) by (apply widths_unique; assumption).
  assert (ST : forall i, (i <= List.length (tb_columns t))%nat -> start (padding_of t) w i = start (padding_of t) w' i).
  { intros i L. apply start_ext. intros j Lj. apply W. lia. }
  assert (END : forall k h span, nth_error (tb_headings t) k = Some (h, span) ->
    (first_column (tb_headings t) k <= List.length (tb_columns t))%nat).
  { intros k h span EK. apply Nat.le_trans with (covered (tb_headings t)); [|exact CV]. clear - EK. revert k EK.
    induction (tb_headings t) as [|[h0 s0] hs IH]; intros [|k] E; simpl in *; try discriminate; [lia|].
    specialize (IH k E). lia. }
  f_equal.
  - assert (items = items').
    { apply (forall2_same _ _ _ _ _ HI HI'). intros k [p s] [q u] _ (sp & E & P) (sp' & E' & P'). cbn [fst snd] in *.
      rewrite E in E'. injection E' as -> ->. f_equal. rewrite P, P'. apply ST. exact (END _ _ _ E). }
    subst items'. exact (placed_same items full full' title title' HP HP' HT HT').
  - f_equal. apply (forall2_same _ _ _ _ _ RW RW'). intros r ls ls' IR (its & f & l & RI & RP & RT & H) (its' & f' & l' & RI' & RP' & RT' & H').
    assert (its = its').
    { apply (forall2_same _ _ _ _ _ RI RI'). intros i [p s] [q u] Ii [E P] [E' P']. cbn [fst snd] in *. apply in_seq in Ii.
      assert (H0 : s = u) by congruence. rewrite <- H0. f_equal. unfold cell_place in P, P'.
      rewrite <- (ST i) in P' by lia. rewrite <- (W i) in P' by lia.
      destruct P as [[F P]|[F P]]; destruct P' as [[F' P']|[F' P']]; try contradiction; lia. }
    subst its'. assert (l = l') by exact (placed_same its f f' l l' RP RP' RT RT'). subst l'.
    destruct H as [[A ->]|[A ->]]; destruct H' as [[A' ->]|[A' ->]]; congruence.
Qed.
