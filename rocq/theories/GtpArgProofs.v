(** Proofs about GTP arguments. *)
From Coq Require Import QArith Qabs Qpower Lqa.
From Verif Require Import Base Bytes PyStr CommonModel SgfPropsModel SgfValueProofs GtpModel GtpSpec GtpProofs
  GtpChannelProofs GtpArgSpec GameplayModel GameplaySpec GameplayResultProofs.
Open Scope Z_scope.

Lemma lstrip_parts s : exists pre, s = pre ++ lstrip s /\ spaces pre.
Proof.
  induction s as [|c s (pre & E & F)]; [exists []; split; [reflexivity|constructor]|].
  simpl. destruct (is_space c) eqn:C.
  - exists (c :: pre). split; [simpl; congruence|]. constructor; auto.
  - exists []. split; [reflexivity|constructor].
Qed.

Lemma strip_parts s : exists pre post, s = pre ++ strip s ++ post /\ spaces pre /\ spaces post.
Proof.
  unfold strip. destruct (lstrip_parts s) as (pre & E & F).
  destruct (lstrip_parts (rev (lstrip s))) as (post & E2 & F2).
  exists pre, (rev post). split; [|split; [exact F|apply Forall_rev; exact F2]].
  rewrite E at 1. f_equal. rewrite <- (rev_involutive (lstrip s)) at 1. rewrite E2 at 1.
  rewrite rev_app_distr. reflexivity.
Qed.

Lemma lstrip_spaces pre s : spaces pre -> lstrip (pre ++ s) = lstrip s.
Proof. induction 1 as [|c pre C F IH]; [reflexivity|]. simpl. rewrite C. exact IH. Qed.

(** Stripping a text with non-space ends. *)
Lemma strip_core pre core post :
  spaces pre -> spaces post -> core <> [] ->
  (forall c r, core = c :: r -> is_space c = false) -> ends_ok core ->
  strip (pre ++ core ++ post) = core.
Proof.
  intros P Q N H1 H2. unfold strip. rewrite lstrip_spaces by exact P.
  assert (lstrip (core ++ post) = core ++ post) as ->.
  { destruct core as [|c r]; [congruence|]. simpl. rewrite (H1 c r eq_refl). reflexivity. }
  rewrite rev_app_distr, lstrip_spaces by (apply Forall_rev; exact Q).
  rewrite lstrip_nonspace; [apply rev_involutive|]. apply ends_ok_rev. exact H2.
Qed.

Lemma digits_forallb ds : digits ds <-> forallb is_digit ds = true.
Proof. unfold digits. rewrite forallb_forall, Forall_forall. tauto. Qed.

Lemma digits_ends u ds : ds <> [] -> digits ds -> ends_ok (u ++ ds).
Proof.
  intros N D w c E. destruct (exists_last N) as (v & d & ->). rewrite app_assoc in E.
  apply app_inj_tail in E. destruct E as [_ <-]. apply digit_not_space.
  apply Forall_app in D. destruct D as [_ D]. inversion D; auto.
Qed.

Lemma py_int_literal s n : int_literal s n <-> py_int s = Ok n.
Proof.
  split.
  - intros H. inversion H as [pre sg k mid ds post P1 P2 Sg M Mn N D]; subst. clear H.
    pose proof (proj1 (digits_forallb ds) D) as Db.
    assert (exists d ds', ds = d :: ds' /\ is_digit d = true) as (d & ds' & Ed & Dd).
    { destruct ds as [|d ds']; [congruence|]. exists d, ds'. split; [reflexivity|]. inversion D; auto. }
    unfold py_int.
    replace (pre ++ sg ++ mid ++ ds ++ post) with (pre ++ (sg ++ mid ++ ds) ++ post) by (rewrite <- !app_assoc; reflexivity).
    rewrite strip_core; auto.
    + inversion Sg; subst sg k; [rewrite (Mn eq_refl)| |]; cbn [str list_ascii_of_string app].
      * rewrite Ed. destruct (ceqb_spec d "-"%char) as [->|]; [discriminate|].
        destruct (ceqb_spec d "+"%char) as [->|]; [discriminate|].
        rewrite <- Ed, Db. f_equal; lia.
      * change (ceqb "+" "-") with false. change (ceqb "+" "+") with true. cbv iota.
        rewrite lstrip_spaces by exact M. rewrite lstrip_nonspace.
        { rewrite Ed in *. rewrite Db. f_equal; lia. }
        { intros c r E. rewrite Ed in E. injection E as <- _. apply digit_not_space; auto. }
      * change (ceqb "-" "-") with true. cbv iota.
        rewrite lstrip_spaces by exact M. rewrite lstrip_nonspace.
        { rewrite Ed in *. rewrite Db. f_equal; lia. }
        { intros c r E. rewrite Ed in E. injection E as <- _. apply digit_not_space; auto. }
    + intros E. apply app_eq_nil in E. destruct E as [_ E]. apply app_eq_nil in E. tauto.
    + intros c r E. inversion Sg; subst sg k; [rewrite (Mn eq_refl) in E| |]; simpl in E.
      * rewrite Ed in E. injection E as <- _. apply digit_not_space; auto.
      * injection E as <- _. reflexivity.
      * injection E as <- _. reflexivity.
    + rewrite app_assoc. apply digits_ends; auto.
  - intros H. unfold py_int in H. destruct (strip_parts s) as (pre & post & E & P1 & P2).
    destruct (strip s) as [|c r] eqn:St; [discriminate|].
    destruct (ceqb_spec c "-"%char) as [->|N1]; [|destruct (ceqb_spec c "+"%char) as [->|N2]].
    + destruct (lstrip r) as [|d ds] eqn:L; [discriminate|]. destruct (forallb is_digit (d :: ds)) eqn:D; [|discriminate].
      injection H as <-. destruct (lstrip_parts r) as (mid & Er & Fm). rewrite L in Er. subst r. rewrite E.
      change (("-"%char :: mid ++ d :: ds) ++ post) with (str "-" ++ (mid ++ d :: ds) ++ post).
      rewrite <- (app_assoc mid).
      replace (- digits_val (d :: ds)) with (-1 * digits_val (d :: ds)) by lia.
      constructor; auto; try discriminate; [constructor|apply digits_forallb; exact D].
    + destruct (lstrip r) as [|d ds] eqn:L; [discriminate|]. destruct (forallb is_digit (d :: ds)) eqn:D; [|discriminate].
      injection H as <-. destruct (lstrip_parts r) as (mid & Er & Fm). rewrite L in Er. subst r. rewrite E.
      change (("+"%char :: mid ++ d :: ds) ++ post) with (str "+" ++ (mid ++ d :: ds) ++ post).
      rewrite <- (app_assoc mid).
      replace (digits_val (d :: ds)) with (1 * digits_val (d :: ds)) by lia.
      constructor; auto; try discriminate; [constructor|apply digits_forallb; exact D].
    + destruct (forallb is_digit (c :: r)) eqn:D; [|discriminate]. injection H as <-. rewrite E.
      replace (digits_val (c :: r)) with (1 * digits_val (c :: r)) by lia.
      change (pre ++ (c :: r) ++ post) with (pre ++ [] ++ [] ++ (c :: r) ++ post).
      constructor; auto; try discriminate; try constructor. apply digits_forallb in D. inversion D; auto.
      apply digits_forallb in D. inversion D; auto.
Qed.

Lemma interpret_int_proof s :
  (forall n, int_literal s n ->
     exists m, interpret_int s = GOk m /\ -1 <= m <= 2147483647 /\
       (0 <= n <= 2147483647 -> m = n) /\ (n < 0 -> m = -1) /\ (2147483647 < n -> m = 2147483647)) /\
  ((forall n, ~ int_literal s n) -> exists msg, interpret_int s = GError msg).
Proof.
  unfold interpret_int. split.
  - intros n L. apply py_int_literal in L. rewrite L.
    assert (gtp_int_max = 2147483647) as -> by reflexivity.
    eexists. split; [reflexivity|].
    destruct (Z.ltb_spec n 0); [lia|]. destruct (Z.ltb_spec 2147483647 n); lia.
  - intros H. destruct (py_int s) as [n|x] eqn:E; [|eauto].
    apply py_int_literal in E. destruct (H n E).
Qed.

Lemma interpret_colour_proof s :
  (forall c, interpret_colour s = GOk c <->
     match c with
     | Black => map lower_char s = str "b" \/ map lower_char s = str "black"
     | White => map lower_char s = str "w" \/ map lower_char s = str "white"
     end) /\
  ((forall c, interpret_colour s <> GOk c) -> exists msg, interpret_colour s = GError msg).
Proof.
  unfold interpret_colour.
  destruct (bytes_eqb_spec (map lower_char s) (str "w")) as [E|N1]; cbn [orb];
  [|destruct (bytes_eqb_spec (map lower_char s) (str "white")) as [E|N2]; cbn [orb];
    [|destruct (bytes_eqb_spec (map lower_char s) (str "b")) as [E|N3]; cbn [orb];
      [|destruct (bytes_eqb_spec (map lower_char s) (str "black")) as [E|N4]]]];
  (split; [intros []; split; intros H; try (injection H; congruence); try discriminate; auto;
           try (destruct H as [H|H]; (congruence || (rewrite H in E; discriminate))); try reflexivity
          |intros H; try (exfalso; eapply H; reflexivity); eauto]).
Qed.

Lemma interpret_boolean_proof s :
  (forall b, interpret_boolean s = GOk b <-> s = str (if b then "true" else "false")) /\
  ((forall b, interpret_boolean s <> GOk b) -> exists msg, interpret_boolean s = GError msg).
Proof.
  unfold interpret_boolean.
  destruct (bytes_eqb_spec s (str "true")) as [->|N1];
  [|destruct (bytes_eqb_spec s (str "false")) as [->|N2]];
  (split; [intros []; split; intros H; try discriminate; try reflexivity; try congruence
          |intros H; try (exfalso; eapply H; reflexivity); eauto]).
Qed.

(** ** Floats *)

Lemma parse_exponent_spec s x : exponent s x <-> parse_exponent s = Some x.
Proof.
  split.
  - intros H. inversion H as [|c sg k ds C Sg N D]; subst; [reflexivity|].
    unfold parse_exponent.
    assert (ceqb c "e"%char || ceqb c "E"%char = true) as -> by (destruct C as [-> | ->]; reflexivity).
    assert (exists d ds', ds = d :: ds' /\ is_digit d = true) as (d & ds' & Ed & Dd).
    { destruct ds as [|d ds']; [congruence|]. exists d, ds'. split; [reflexivity|]. inversion D; auto. }
    apply digits_forallb in D. rewrite Ed in *.
    inversion Sg; subst sg k; cbn [str list_ascii_of_string app parse_sign].
    + destruct (ceqb_spec d "-"%char) as [->|]; [discriminate|].
      destruct (ceqb_spec d "+"%char) as [->|]; [discriminate|]. rewrite D. f_equal; lia.
    + change (ceqb "+" "-") with false. change (ceqb "+" "+") with true. cbv iota. rewrite D. f_equal; lia.
    + change (ceqb "-" "-") with true. cbv iota. rewrite D. f_equal; lia.
  - unfold parse_exponent. destruct s as [|c r]; [intros H; injection H as <-; constructor|].
    destruct (ceqb c "e"%char || ceqb c "E"%char) eqn:C; [|discriminate].
    assert (c = "e"%char \/ c = "E"%char) as C'.
    { apply orb_true_iff in C. destruct C as [C|C]; [left|right]; apply Ascii.eqb_eq; exact C. }
    assert (forall sg neg r', parse_sign r = (neg, r') -> sign sg (if neg then -1 else 1) -> r = sg ++ r' ->
      match r' with
      | [] => None
      | _ => if forallb is_digit r' then Some (if neg then - digits_val r' else digits_val r') else None
      end = Some x -> exponent (c :: r) x) as K.
    { intros sg neg r' _ Sg -> H. destruct r' as [|d r']; [discriminate|].
      destruct (forallb is_digit (d :: r')) eqn:D; [|discriminate]. injection H as <-.
      replace (if neg then - digits_val (d :: r') else digits_val (d :: r'))
        with ((if neg then -1 else 1) * digits_val (d :: r')) by (destruct neg; lia).
      constructor; auto; [discriminate|apply digits_forallb; exact D]. }
    destruct (parse_sign r) as [neg r'] eqn:P. intros H.
    unfold parse_sign in P. destruct r as [|a r0]; [injection P as <- <-; discriminate H|].
    destruct (ceqb_spec a "-"%char) as [->|]; [|destruct (ceqb_spec a "+"%char) as [->|]];
      injection P as <- <-.
    + apply (K (str "-") true r0); auto; try constructor.
    + apply (K (str "+") false r0); auto; try constructor.
    + apply (K [] false (a :: r0)); auto; try constructor.
Qed.

(** What remains of [py_float] once the signs and the digits have been separated. *)
Definition float_value (neg : bool) (ds : bytes) (x : Z) (n : nat) : Z * nat :=
  let m := if neg then - digits_val ds else digits_val ds in
  let e' := x - Z.of_nat n in
  if 0 <=? e' then (m * 10 ^ e', O) else normalise_dec m (Z.to_nat (- e')).

Lemma Qpower_10 n : 0 <= n -> (Qpower (10 # 1) n == inject_Z (10 ^ n))%Q.
Proof.
  intros H. rewrite <- (Z2Nat.id n) by exact H. generalize (Z.to_nat n) as k. clear.
  induction k as [|k IH]; [reflexivity|].
  rewrite Nat2Z.inj_succ, Z.pow_succ_r by lia. unfold Z.succ.
  rewrite Qpower_plus by (intro; discriminate). rewrite IH, inject_Z_mult.
  change (Qpower (10 # 1) 1) with (10 # 1)%Q. change (inject_Z 10) with (10 # 1)%Q. ring.
Qed.

Lemma float_value_ok neg ds x n :
  (value (float_value neg ds x n) ==
   inject_Z ((if neg then -1 else 1) * digits_val ds) * Qpower (10 # 1) (x - Z.of_nat n))%Q.
Proof.
  unfold float_value. set (m := if neg then - digits_val ds else digits_val ds).
  assert ((if neg then -1 else 1) * digits_val ds = m) as -> by (unfold m; destruct neg; lia).
  destruct (Z.leb_spec 0 (x - Z.of_nat n)) as [L|L].
  - unfold value. cbn [fst snd]. rewrite Qpower_10 by exact L. rewrite inject_Z_mult.
    change (inject_Z (10 ^ Z.of_nat 0)) with 1%Q. field.
  - set (k := Z.to_nat (- (x - Z.of_nat n))). destruct (normalise_value m k) as [V _]. rewrite V.
    replace (x - Z.of_nat n) with (- Z.of_nat k) by (unfold k; lia).
    rewrite Qpower_opp, Qpower_10 by lia. unfold value. cbn [fst snd]. field.
    pose proof (pow10_Q k). lra.
Qed.

Lemma sign_first c r sg k : sign sg k -> sg = c :: r -> is_space c = false.
Proof. intros H E. destruct H; try discriminate E; injection E as <- _; reflexivity. Qed.

Lemma no_digit_exponent ex x : exponent ex x -> no_digit_first ex /\ (forall c r, ex = c :: r -> c <> "."%char).
Proof.
  intros H. inversion H as [|c sg k ds C Sg N D]; subst; (split; intros a b E).
  - discriminate.
  - discriminate.
  - injection E as <- _. destruct C as [-> | ->]; reflexivity.
  - injection E as <- _. destruct C as [-> | ->]; discriminate.
Qed.

Lemma ends_ok_append u v : v <> [] -> ends_ok v -> ends_ok (u ++ v).
Proof.
  intros N H w c E. destruct (exists_last N) as (v' & d & ->). rewrite app_assoc in E.
  apply app_inj_tail in E. destruct E as [_ <-]. apply (H v' d eq_refl).
Qed.

Lemma digits_ends0 ds : digits ds -> ends_ok ds.
Proof. intros D. destruct ds as [|d ds]; [intros [|] ? ?; discriminate|]. apply (digits_ends [] (d :: ds)); auto; discriminate. Qed.

Lemma exponent_ends ex x : exponent ex x -> ends_ok ex.
Proof.
  intros H. inversion H as [|c sg k ds C Sg N D]; subst.
  - intros [|] ? ?; discriminate.
  - change (c :: sg ++ ds) with ((c :: sg) ++ ds). apply digits_ends; auto.
Qed.

Lemma fraction_ends fr fp : fraction fr fp -> ends_ok fr.
Proof.
  intros H. inversion H as [|ds D]; subst.
  - intros [|] ? ?; discriminate.
  - destruct fp as [|d ds]; [intros [|a [|b u]] c E; try discriminate; injection E as <-; reflexivity|].
    change ("."%char :: d :: ds) with (["."%char] ++ d :: ds). apply digits_ends; auto; discriminate.
Qed.

Lemma ends_ok_app2 u v : ends_ok u -> ends_ok v -> ends_ok (u ++ v).
Proof.
  intros A B. destruct v as [|c v]; [rewrite app_nil_r; exact A|]. apply ends_ok_append; auto; discriminate.
Qed.

Lemma sign_ends sg k : sign sg k -> ends_ok sg.
Proof. intros H. inversion H; subst; intros [|a [|b u]] c E; try discriminate; injection E as <-; reflexivity. Qed.

Lemma py_float_literal_fwd s q : float_literal s q -> exists f, py_float s = Ok f /\ (value f == q)%Q.
Proof.
  intros H. inversion H as [pre sg k ip fr fp ex x post P1 P2 Sg D Fr Ex N]; subst. clear H.
  exists (float_value (k <? 0) (ip ++ fp) x (List.length fp)). split.
  2:{ rewrite float_value_ok. inversion Sg; reflexivity. }
  unfold py_float.
  replace (pre ++ sg ++ ip ++ fr ++ ex ++ post) with (pre ++ (sg ++ ip ++ fr ++ ex) ++ post) by (rewrite <- !app_assoc; reflexivity).
  pose proof (no_digit_exponent ex x Ex) as [Nd Ndot].
  (* how the rest is read *)
  assert (no_digit_first (fr ++ ex)) as Nfr.
  { inversion Fr; subst; [exact Nd|]. intros c r E. injection E as <- _. reflexivity. }
  assert (match fr ++ ex with
          | c :: r' => if ceqb c "."%char then span_digits r' else ([], fr ++ ex)
          | [] => ([], [])
          end = (fp, ex)) as Rfr.
  { inversion Fr as [|ds Df]; subst.
    - cbn [app]. destruct ex as [|c r]; [reflexivity|]. destruct (ceqb_spec c "."%char) as [->|]; [|reflexivity].
      destruct (Ndot _ _ eq_refl). reflexivity.
    - cbn [app]. change (ceqb "." ".") with true. cbv iota. apply span_digits_app; auto. }
  rewrite strip_core; auto.
  - assert (parse_sign (sg ++ ip ++ fr ++ ex) = (k <? 0, ip ++ fr ++ ex)) as ->.
    { inversion Sg; subst sg k; cbn [app str list_ascii_of_string]; [|reflexivity|reflexivity].
      destruct (ip ++ fr ++ ex) as [|c r] eqn:E; [reflexivity|]. unfold parse_sign.
      assert (c <> "-"%char /\ c <> "+"%char) as [A B].
      { destruct ip as [|d ip].
        - cbn [app] in E, N. inversion Fr as [|ds Df]; subst; [congruence|]. injection E as <- _. split; discriminate.
        - injection E as <- _. inversion D; subst. split; intros ->; discriminate. }
      destruct (ceqb_spec c "-"%char); [congruence|]. destruct (ceqb_spec c "+"%char); [congruence|]. reflexivity. }
    rewrite span_digits_app by auto. cbv beta iota.
    match goal with |- context [let (_, _) := ?m in _] => replace m with (fp, ex) by (symmetry; exact Rfr) end.
    apply parse_exponent_spec in Ex. rewrite Ex. unfold float_value.
    destruct (ip ++ fp) as [|d ds] eqn:E; [congruence|]. reflexivity.
  - intros E. apply N. apply app_eq_nil in E. destruct E as [_ E]. apply app_eq_nil in E. destruct E as [-> E].
    apply app_eq_nil in E. destruct E as [-> _]. inversion Fr. reflexivity.
  - intros c r E. destruct sg as [|a sg].
    + cbn [app] in E. destruct ip as [|d ip].
      * cbn [app] in E, N. inversion Fr as [|ds Df]; subst; [congruence|]. injection E as <- _. reflexivity.
      * injection E as <- _. inversion D; subst. apply digit_not_space; auto.
    + injection E as <- _. eapply sign_first; eauto.
  - apply ends_ok_app2; [eapply sign_ends; eauto|]. apply ends_ok_app2; [apply digits_ends0; auto|].
    apply ends_ok_app2; [eapply fraction_ends; eauto|eapply exponent_ends; eauto].
Qed.

Lemma py_float_literal_bwd s f : py_float s = Ok f -> exists q, float_literal s q /\ (value f == q)%Q.
Proof.
  unfold py_float. intros H. destruct (strip_parts s) as (pre & post & E & P1 & P2).
  remember (strip s) as core eqn:Ec. clear Ec.
  destruct (parse_sign core) as [neg r] eqn:Ps.
  assert (exists sg, core = sg ++ r /\ sign sg (if neg then -1 else 1)) as (sg & Ec & Sg).
  { unfold parse_sign in Ps. destruct core as [|c core]; [injection Ps as <- <-; exists []; split; [reflexivity|constructor]|].
    destruct (ceqb_spec c "-"%char) as [->|]; [|destruct (ceqb_spec c "+"%char) as [->|]]; injection Ps as <- <-.
    - exists (str "-"). split; [reflexivity|constructor].
    - exists (str "+"). split; [reflexivity|constructor].
    - exists []. split; [reflexivity|constructor]. }
  destruct (span_digits r) as [ip r1] eqn:S1. apply span_digits_spec in S1. destruct S1 as (-> & Di & N1).
  destruct (match r1 with
            | [] => ([], [])
            | c :: r' => if ceqb c "."%char then span_digits r' else ([], r1)
            end) as [fp r2] eqn:S2.
  assert (exists fr, r1 = fr ++ r2 /\ fraction fr fp) as (fr & Er1 & Fr).
  { destruct r1 as [|c r']; [injection S2 as <- <-; exists []; split; [reflexivity|constructor]|].
    destruct (ceqb_spec c "."%char) as [->|].
    - apply span_digits_spec in S2. destruct S2 as (-> & D & _). exists ("."%char :: fp). split; [reflexivity|constructor; exact D].
    - injection S2 as <- <-. exists []. split; [reflexivity|constructor]. }
  destruct (ip ++ fp) as [|d ds] eqn:Eds; [discriminate|].
  destruct (parse_exponent r2) as [x|] eqn:Ex; [|discriminate].
  apply parse_exponent_spec in Ex.
  assert (f = float_value neg (ip ++ fp) x (List.length fp)) as ->.
  { rewrite Eds. unfold float_value. injection H as <-. reflexivity. }
  eexists. split; [|apply float_value_ok].
  rewrite E, Ec, Er1, <- !app_assoc. constructor; auto. rewrite Eds. discriminate.
Qed.

Lemma value_abs m k : (Qabs (value (m, k)) == value (Z.abs m, k))%Q.
Proof.
  unfold value. cbn [fst snd]. unfold Qdiv. rewrite Qabs_Qmult.
  assert (Qabs (/ inject_Z (10 ^ Z.of_nat k)) == / inject_Z (10 ^ Z.of_nat k))%Q as ->.
  { apply Qabs_pos. apply Qinv_le_0_compat. pose proof (pow10_Q k). lra. }
  reflexivity.
Qed.

Lemma interpret_real_big m k :
  ((2 ^ 1024 - 2 ^ 970) * 10 ^ Z.of_nat k <=? Z.abs m) = true <-> (float_max <= Qabs (value (m, k)))%Q.
Proof.
  rewrite value_abs, Z.leb_le. unfold float_max, value. cbn [fst snd].
  generalize (2 ^ 1024 - 2 ^ 970) as B. intros B.
  pose proof (pow10_Q k) as P.
  assert ((inject_Z B <= inject_Z (Z.abs m) / inject_Z (10 ^ Z.of_nat k))%Q <-> (inject_Z B * inject_Z (10 ^ Z.of_nat k) <= inject_Z (Z.abs m))%Q) as ->.
  { split; intros H.
    - apply (Qmult_le_compat_r _ _ (inject_Z (10 ^ Z.of_nat k))) in H; [|lra].
      unfold Qdiv in H. rewrite <- Qmult_assoc, (Qmult_comm (/ _)), Qmult_inv_r, Qmult_1_r in H by lra. exact H.
    - apply Qle_shift_div_l; [lra|exact H]. }
  rewrite <- inject_Z_mult, <- Zle_Qle. reflexivity.
Qed.

Lemma interpret_float_proof s :
  (forall q, float_literal s q -> (Qabs q < float_max)%Q ->
     exists f, interpret_float s = GOk f /\ (value f == q)%Q) /\
  (forall f, interpret_float s = GOk f -> (Qabs (value f) < float_max)%Q /\ exists q, float_literal s q /\ (value f == q)%Q) /\
  ((forall f, interpret_float s <> GOk f) -> exists msg, interpret_float s = GError msg).
Proof.
  unfold interpret_float, interpret_real. split; [|split].
  - intros q L B. destruct (py_float_literal_fwd s q L) as ((m & k) & E & V). rewrite E. cbn [bind].
    destruct ((2 ^ 1024 - 2 ^ 970) * 10 ^ Z.of_nat k <=? Z.abs m) eqn:Big.
    + apply interpret_real_big in Big. rewrite V in Big. exfalso. apply (Qlt_not_le _ _ B Big).
    + exists (m, k). split; [reflexivity|exact V].
  - intros f. destruct (py_float s) as [[m k]|x] eqn:E; cbn [bind]; [|discriminate].
    destruct ((2 ^ 1024 - 2 ^ 970) * 10 ^ Z.of_nat k <=? Z.abs m) eqn:Big; [discriminate|].
    intros H. injection H as <-. split.
    + apply Qnot_le_lt. intros K. apply interpret_real_big in K. congruence.
    + apply py_float_literal_bwd in E. exact E.
  - intros H. destruct (do (m, k) <- py_float s;
      (if (2 ^ 1024 - 2 ^ 970) * 10 ^ Z.of_nat k <=? Z.abs m then Err ValueError else Ok (m, k))) as [f|x] eqn:E; eauto.
    exfalso. eapply H. reflexivity.
Qed.
