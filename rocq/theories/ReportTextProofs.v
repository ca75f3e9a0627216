From Coq Require Import QArith Lqa Permutation.
From Verif Require Import Base Bytes PyStr Dict CommonModel SgfPropsModel SgfValueProofs SchedModel GtpModel GameplayModel GameplaySpec GameplayResultProofs TournModel
  TableModel TableSpec TableProofs TableMainProofs TableReadProofs ReportModel ReportSpec.
Open Scope Z_scope.

(** ** Counting *)
Lemma count_such (f : game_result -> bool) (F : game_result -> Prop) rs : (forall r, f r = true <-> F r) -> games_such F rs (count f rs).
Proof.
  intros H. unfold count.
  induction rs as [|r rs (l & E & ND & I)].
  - exists []. repeat split; [constructor|intros []|]. intros (r & E & _). destruct i; discriminate.
  - assert (G : forall i, In i (map S l) <-> exists r0, nth_error (r :: rs) i = Some r0 /\ F r0 /\ i <> O).
    { intros i. rewrite in_map_iff. split.
      - intros (j & <- & J). apply I in J. destruct J as (r0 & E0 & F0). exists r0. auto.
      - intros (r0 & E0 & F0 & N). destruct i as [|i]; [congruence|]. exists i. split; [reflexivity|]. apply I. exists r0. split; assumption. }
    assert (ND' : NoDup (map S l)) by (apply FinFun.Injective_map_NoDup; [intros a b X; congruence|exact ND]).
    cbn [filter]. destruct (f r) eqn:FR.
    + exists (O :: map S l). repeat split.
      * cbn [List.length]. rewrite map_length. lia.
      * constructor; [|exact ND']. rewrite in_map_iff. intros (j & X & _). discriminate.
      * intros [<-|J]; [exists r; split; [reflexivity|apply H; exact FR]|]. apply G in J. destruct J as (r0 & A & B & _). exists r0. split; assumption.
      * intros (r0 & A & B). destruct i as [|i]; [left; reflexivity|right]. apply G. exists r0. repeat split; [exact A|exact B|discriminate].
    + exists (map S l). repeat split.
      * rewrite map_length. exact E.
      * exact ND'.
      * intros J. apply G in J. destruct J as (r0 & A & B & _). exists r0. split; assumption.
      * intros (r0 & A & B). apply G. exists r0. repeat split; [exact A|exact B|]. intros ->. injection A as <-. apply H in B. congruence.
Qed.

Lemma such_fun F rs a b : games_such F rs a -> games_such F rs b -> a = b.
Proof.
  intros (l & -> & N & I) (m & -> & M & J). apply f_equal.
  apply Nat.le_antisymm; apply NoDup_incl_length; try assumption; intros i X; [apply J, I|apply I, J]; exact X.
Qed.

Lemma all_such rs : games_such (fun _ => True) rs (Z.of_nat (List.length rs)).
Proof.
  exists (seq 0 (List.length rs)). rewrite seq_length. repeat split; [apply seq_NoDup|intros H|].
  - apply in_seq in H. destruct (nth_error rs i) as [r|] eqn:E; [exists r; auto|]. apply nth_error_None in E. lia.
  - intros (r & E & _). apply in_seq. assert (i < List.length rs)%nat by (apply nth_error_Some; congruence). lia.
Qed.

Lemma count_pos {A} (f : A -> bool) l : (0 < count f l) <-> exists x, In x l /\ f x = true.
Proof.
  unfold count. split.
  - intros H. destruct (filter f l) as [|x m] eqn:E; [cbn in H; lia|]. exists x. apply filter_In. rewrite E. left. reflexivity.
  - intros (x & X). apply filter_In in X. destruct (filter f l); [destruct X|cbn; lia].
Qed.
Lemma count_nonneg {A} (f : A -> bool) l : 0 <= count f l.
Proof. unfold count. lia. Qed.

(** ** Texts of numbers *)
Definition text_char (c : ascii) : Prop := is_digit c = true \/ c = "."%char \/ c = "-"%char \/ c = "%"%char \/ c = "?"%char.
Lemma text_char_black c : text_char c -> ~ white c.
Proof. unfold white. intros [H|[->|[->|[->| ->]]]]; try discriminate. unfold is_digit, is_space in *. lia. Qed.

Lemma int_chars n : 0 <= n -> str_int n <> [] /\ Forall text_char (str_int n).
Proof.
  intros P. split; [apply str_int_nonempty|]. destruct (str_int_nonneg n P) as (_ & D & _).
  rewrite forallb_forall in D. apply Forall_forall. intros c I. left. apply D. exact I.
Qed.

Lemma half_shown h : 0 <= h -> shows_half h (format_half h).
Proof.
  intros P. exists (h / 2). split; [apply Z.div_pos; lia|]. unfold format_half, format_float. cbn [fst snd normalise_dec].
  pose proof (Z.div_mod h 2 ltac:(lia)) as D. pose proof (Z.mod_pos_bound h 2 ltac:(lia)) as B.
  destruct (Z.eqb_spec (5 * h mod 10) 0) as [E|E].
  - left. assert (h mod 2 = 0).
    { replace (5 * h) with (5 * (h mod 2) + (h / 2) * 10) in E by lia. rewrite Z.mod_add in E by lia. rewrite Z.mod_small in E by lia. lia. }
    split; [lia|]. f_equal. replace (5 * h) with ((h / 2) * 10) by lia. apply Z.div_mul. lia.
  - right. assert (h mod 2 = 1).
    { destruct (Z.eq_dec (h mod 2) 0) as [X|X]; [|lia]. exfalso. apply E. replace (5 * h) with ((h / 2) * 10) by lia. apply Z.mod_mul. lia. }
    split; [lia|]. destruct (Z.ltb_spec (5 * h) 0); [lia|]. change (10 ^ Z.of_nat 1) with 10. rewrite Z.abs_eq by lia.
    replace (5 * h) with (5 + (h / 2) * 10) by lia. rewrite Z.mod_add, Z.div_add by lia.
    change (5 mod 10) with 5. change (5 / 10) with 0. rewrite Z.add_0_l. reflexivity.
Qed.

Lemma half_word h s : shows_half h s -> s <> [] /\ Forall text_char s.
Proof.
  intros (n & P & [[_ ->]|[_ ->]]).
  - apply int_chars. exact P.
  - destruct (int_chars n P) as [A B]. split; [destruct (str_int n); [congruence|discriminate]|].
    apply Forall_app. split; [exact B|]. constructor; [right; left; reflexivity|]. constructor; [left; reflexivity|constructor].
Qed.

Lemma nearest_near tie n d : 0 < d -> 0 <= n -> 0 <= nearest tie n d /\ 2 * Z.abs (nearest tie n d * d - n) <= d.
Proof.
  intros D N. unfold nearest. pose proof (Z.div_mod n d ltac:(lia)) as E. pose proof (Z.mod_pos_bound n d D) as B.
  pose proof (Z.div_pos n d N D) as Q.
  destruct (Z.ltb_spec (2 * (n mod d)) d); [split; [exact Q|]; nia|].
  destruct (Z.ltb_spec d (2 * (n mod d))); [split; [lia|]; nia|]. destruct (tie n d); split; try lia; nia.
Qed.

Lemma fixed2_shown tie n d : 0 < d -> 0 <= n -> shows_places n d (fixed2 tie n d).
Proof.
  intros D N. unfold fixed2. rewrite Z.abs_eq by exact N. destruct (Z.ltb_spec n 0); [lia|]. cbn [app].
  destruct (nearest_near tie (100 * n) d D ltac:(lia)) as [P Q]. set (q := nearest tie (100 * n) d) in *.
  assert (BB : 0 <= q mod 100 < 100) by (apply Z.mod_pos_bound; lia).
  exists q, (zfill 2 (str_int (q mod 100))). split; [exact P|]. split; [exact Q|]. split; [reflexivity|].
  destruct (zfill_exact 2 (q mod 100) ltac:(exact BB) ltac:(lia)) as (L2 & D2 & V2). split; [exact L2|]. split; [|exact V2].
  apply Forall_forall. rewrite forallb_forall in D2. exact D2.
Qed.

Lemma places_word n d s : shows_places n d s -> s <> [] /\ Forall text_char s.
Proof.
  intros (q & t & P & _ & -> & L & F & _). destruct (int_chars (q / 100) ltac:(apply Z.div_pos; lia)) as [A B]. split.
  - destruct (str_int (q / 100)); [congruence|discriminate].
  - apply Forall_app. split; [exact B|]. apply Forall_app. split; [constructor; [right; left; reflexivity|constructor]|].
    eapply Forall_impl; [|exact F]. intros c H. left. exact H.
Qed.

Lemma percent_shown tie h n : 0 <= h -> 0 <= n -> shows_percent h n (format_percent tie h n).
Proof.
  intros H N. unfold format_percent. destruct (Z.eqb_spec n 0) as [->|NZ].
  - destruct (Z.eqb_spec h 0) as [->|HZ]; [left; auto|right; left; auto].
  - right. right. split; [exact NZ|]. eexists. split; [|reflexivity]. apply fixed2_shown; lia.
Qed.

Lemma percent_word h n s : shows_percent h n s -> s <> [] /\ Forall text_char s.
Proof.
  intros [(_ & _ & ->)|[(_ & _ & ->)|(_ & t & P & ->)]].
  - split; [discriminate|]. (repeat (apply Forall_cons; [unfold text_char; tauto|]); apply Forall_nil).
  - split; [discriminate|]. (repeat (apply Forall_cons; [unfold text_char; tauto|]); apply Forall_nil).
  - destruct (places_word _ _ _ P) as [A B]. split; [destruct t; [congruence|discriminate]|].
    apply Forall_app. split; [exact B|]. (repeat (apply Forall_cons; [unfold text_char; tauto|]); apply Forall_nil).
Qed.

(** ** Times *)
Lemma num_add_value a b : (value (num_add a b) == value a + value b)%Q.
Proof.
  unfold value, num_add. cbn [fst snd]. rewrite Nat2Z.inj_add, Z.pow_add_r by lia.
  rewrite inject_Z_mult, inject_Z_plus, !inject_Z_mult. pose proof (pow10_Q (snd a)). pose proof (pow10_Q (snd b)). field. split; lra.
Qed.

Lemma sum_value l : forall x, (value (fold_left num_add l x) == value x + sum_of l)%Q.
Proof.
  induction l as [|y l IH]; intros x; cbn [fold_left sum_of fold_right]; [lra|]. rewrite IH, num_add_value. fold (sum_of l). lra.
Qed.

Lemma known_times_of p rs : has_times p rs -> known_times p rs = Ok (times_of p rs).
Proof.
  induction 1 as [|r rs (t & E) F IH]; [reflexivity|]. cbn [known_times times_of flat_map]. rewrite E, IH. cbn [bind].
  destruct t; reflexivity.
Qed.

Lemma average_time_of p rs : has_times p rs -> exists a, average_time p rs = Ok a /\
  (truthy a = true <-> ~ (sum_of (times_of p rs) == 0)%Q) /\
  (times_of p rs = [] /\ a = None \/
   times_of p rs <> [] /\ exists n d, a = Some (n, d) /\ 0 < d /\
     (inject_Z n / inject_Z d == sum_of (times_of p rs) / inject_Z (Z.of_nat (List.length (times_of p rs))))%Q).
Proof.
  intros H. unfold average_time. rewrite (known_times_of p rs H). cbn [bind].
  destruct (times_of p rs) as [|x l] eqn:T.
  - exists None. split; [reflexivity|]. split; [|left; split; reflexivity]. split; [discriminate|]. intros N. exfalso. apply N. reflexivity.
  - set (L := x :: l). eexists. split; [reflexivity|]. pose proof (sum_value L (0, O)) as V.
    assert (V0 : (value (0%Z, O) == 0)%Q) by reflexivity.
    set (s := fold_left num_add L (0, O)) in *. rewrite V0 in V. unfold value in V. pose proof (pow10_Q (snd s)) as P10.
    assert (LP : (0 < inject_Z (Z.of_nat (List.length L)))%Q).
    { change 0%Q with (inject_Z 0). rewrite <- Zlt_Qlt. unfold L. cbn [List.length]. lia. }
    split.
    + cbn [truthy]. destruct (Z.eqb_spec (fst s) 0) as [Z|Z]; cbn [negb]; split; intros X; try discriminate; try reflexivity.
      * exfalso. apply X. rewrite Z in V. assert (E0 : (inject_Z 0 / inject_Z (10 ^ Z.of_nat (snd s)) == 0)%Q) by (unfold Qdiv; change (inject_Z 0) with 0%Q; lra). lra.
      * intros Y. apply Z. assert (E0 : (inject_Z (fst s) / inject_Z (10 ^ Z.of_nat (snd s)) == 0)%Q) by lra.
        assert (E1 : (inject_Z (fst s) == 0)%Q).
        { rewrite <- (Qmult_div_r (inject_Z (fst s)) (inject_Z (10 ^ Z.of_nat (snd s)))) by lra. rewrite E0. lra. }
        change 0%Q with (inject_Z 0) in E1. apply (proj1 (inject_Z_injective _ _)) in E1. exact E1.
    + right. split; [discriminate|]. exists (fst s), (10 ^ Z.of_nat (snd s) * Z.of_nat (List.length L)). split; [reflexivity|].
      assert (0 < 10 ^ Z.of_nat (snd s)) by (apply Z.pow_pos_nonneg; lia).
      split; [unfold L; cbn [List.length]; nia|]. rewrite inject_Z_mult.
      assert (V' : (sum_of L == inject_Z (fst s) / inject_Z (10 ^ Z.of_nat (snd s)))%Q) by lra. rewrite V'. field. split; lra.
Qed.

Lemma mean_shown tie n d l : 0 < d ->
  (inject_Z n / inject_Z d == sum_of l / inject_Z (Z.of_nat (List.length l)))%Q -> shows_mean l (fixed2 tie n d).
Proof.
  intros D E. exists n, d. split; [exact D|]. split; [exact E|]. destruct (Z_lt_dec n 0) as [N|N].
  - right. split; [exact N|]. exists (fixed2 tie (- n) d). split; [apply fixed2_shown; lia|]. unfold fixed2.
    rewrite Z.abs_opp. destruct (Z.ltb_spec n 0); [|lia]. destruct (Z.ltb_spec (- n) 0); [lia|]. reflexivity.
  - left. split; [lia|]. apply fixed2_shown; lia.
Qed.

Lemma time_shown tie a l : 
  (l = [] /\ a = None \/ l <> [] /\ exists n d, a = Some (n, d) /\ 0 < d /\
     (inject_Z n / inject_Z d == sum_of l / inject_Z (Z.of_nat (List.length l)))%Q) ->
  exists s, shows_time l s /\ s <> [] /\ Forall text_char s /\ split_ws (time_text tie a) = [s].
Proof.
  intros [[-> ->]|(NE & n & d & -> & D & E)].
  - exists (str "----"). split; [left; split; reflexivity|]. split; [discriminate|]. split; [(repeat (apply Forall_cons; [unfold text_char; tauto|]); apply Forall_nil)|reflexivity].
  - exists (fixed2 tie n d). pose proof (mean_shown tie n d l D E) as M.
    assert (W : fixed2 tie n d <> [] /\ Forall text_char (fixed2 tie n d)).
    { destruct M as (n' & d' & _ & _ & [[_ P]|(_ & t & P & ->)]); [exact (places_word _ _ _ P)|].
      destruct (places_word _ _ _ P) as [A B]. split; [discriminate|]. constructor; [unfold text_char; tauto|exact B]. }
    split; [right; split; assumption|]. split; [apply W|]. split; [apply W|].
    cbn [time_text]. unfold pad_left. rewrite split_ws_white by apply blanks_white.
    rewrite <- (app_nil_r (fixed2 tie n d)). rewrite split_ws_word'; [rewrite app_nil_r; reflexivity|apply W| |discriminate].
    eapply Forall_impl; [|apply W]. intros c. apply text_char_black.
Qed.
