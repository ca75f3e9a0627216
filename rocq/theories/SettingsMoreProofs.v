(** Proofs about board sizes, handicaps, errors and idempotence (C44). *)
From Coq Require Import QArith.
From Verif Require Import Base Bytes PyStr Dict CommonModel CommonProofs TournModel SgfPropsModel SgfPropsSpec SgfValueProofs
  SettingsModel SettingsSpec SettingsProofs SettingsLoadProofs SettingsConfigProofs.
Open Scope Z_scope.

Lemma int_of_iff v z : int_of v = Some z <-> int_value v z.
Proof.
  split; [destruct v as [|[]| | | | | | | | | | |]; cbn; try discriminate; intros E; injection E as <-; constructor|]. destruct 1; reflexivity.
Qed.
Lemma int_value_fun v a b : int_value v a -> int_value v b -> a = b.
Proof. intros A B. apply int_of_iff in A, B. congruence. Qed.
Lemma board_size_ok v r : interpret_board_size v = Good r <-> r = v /\ exists z, int_value v z /\ 2 <= z <= 25.
Proof.
  unfold interpret_board_size. setoid_rewrite <- int_of_iff. destruct (int_of v) as [z|].
  - destruct (Z.ltb_spec z 2); [|destruct (Z.ltb_spec 25 z)].
    + split; [discriminate|]. intros (_ & z' & E & B). assert (z' = z) by congruence. lia.
    + split; [discriminate|]. intros (_ & z' & E & B). assert (z' = z) by congruence. lia.
    + split; [intros E; injection E as <-; split; [reflexivity|]; exists z; split; [reflexivity|lia]|]. intros (-> & _). reflexivity.
  - split; [discriminate|]. intros (_ & z' & E & B). discriminate.
Qed.
Lemma candidate_colour_ok v r : interpret_candidate_colour v = Good r <->
  ((text v (str "r") \/ text v (str "random")) /\ r = VStr (str "random")) \/
  ((colour_word v (str "b") \/ colour_word v (str "black")) /\ r = VStr (str "b")) \/
  ((colour_word v (str "w") \/ colour_word v (str "white")) /\ r = VStr (str "w")).
Proof.
  unfold interpret_candidate_colour. assert (is_one_of [str "r"; str "random"] v = true <-> text v (str "r") \/ text v (str "random")) as O.
  { rewrite one_of_spec. split; [intros (s & T & [<-|[<-|[]]]); auto|intros [T|T]; [exists (str "r")|exists (str "random")]; (split; [exact T|]); [left|right; left]; reflexivity]. }
  destruct (is_one_of _ v) eqn:E.
  - assert (text v (str "r") \/ text v (str "random")) as T by (apply O; reflexivity). split; [intros H; injection H as <-; auto|].
    intros [[_ ->]|H]; [reflexivity|]. exfalso. rewrite <- !lowered_spec in H by reflexivity.
    assert (lowered v = Some (str "r") \/ lowered v = Some (str "random")) as L.
    { assert (forall s, forallb is_lower s = true -> text v s -> lowered v = Some s) as TL.
      { intros s LS T'. apply lowered_spec; [exact LS|]. unfold colour_word. inversion T' as [x|u x F]; subst.
        - left. exists s. split; [reflexivity|]. unfold spelt. clear. induction s; constructor; auto.
        - right. exists u. split; [reflexivity|]. unfold uni_spelt. clear -F. induction F as [|z c u s [E _] F IH]; constructor; auto. }
      destruct T as [T|T]; [left|right]; apply TL; try exact T; reflexivity. }
    destruct L as [L|L]; rewrite L in H; destruct H as [[[X|X] _]|[[X|X] _]]; discriminate.
  - rewrite colour_ok. split; [intros H; right; exact H|]. intros [[T _]|H]; [|exact H]. apply O in T. discriminate.
Qed.

(** Handicaps. *)
Lemma validate_ok h free size : 2 <= size <= 25 ->
  validate_handicap h free size = Ok tt <->
  (h = None \/ exists n, h = Some n /\ 2 <= n /\
    (if free then n < size * size else 8 <= size /\ (if Z.even size then n <= 4 else n <= 9))).
Proof.
  intros SZ. unfold validate_handicap. destruct h as [n|].
  - destruct (Z.ltb_spec n 2) as [L|L].
    + split; [discriminate|]. intros [X|(n' & E & B & _)]; [discriminate|]. injection E as <-. lia.
    + destruct free; cbn [bind].
      * unfold max_free_handicap. destruct (Z.ltb_spec (size * size - 1) n); split; try discriminate.
        -- intros [X|(n' & E & B & C)]; [discriminate|]. injection E as <-. lia.
        -- intros _. right. exists n. split; [reflexivity|lia].
        -- reflexivity.
      * rewrite max_fixed_spec. destruct (Z.leb_spec size 7); [|replace (25 <? size) with false by lia; destruct (Z.even size)]; cbn [bind].
        -- replace (0 <? n) with true by lia. split; [discriminate|]. intros [X|(n' & E & B & C & _)]; [discriminate|]. lia.
        -- destruct (Z.ltb_spec 4 n); split; try discriminate; try reflexivity.
           ++ intros [X|(n' & E & B & C & D)]; [discriminate|]. injection E as <-. lia.
           ++ intros _. right. exists n. split; [reflexivity|lia].
        -- destruct (Z.ltb_spec 9 n); split; try discriminate; try reflexivity.
           ++ intros [X|(n' & E & B & C & D)]; [discriminate|]. injection E as <-. lia.
           ++ intros _. right. exists n. split; [reflexivity|lia].
  - split; [auto|reflexivity].
Qed.
Lemma validate_error h free size : 2 <= size <= 25 -> validate_handicap h free size = Ok tt \/ validate_handicap h free size = Err ControlFileError.
Proof.
  intros SZ. unfold validate_handicap. destruct h as [n|]; [|left; reflexivity]. destruct (n <? 2); [right; reflexivity|].
  destruct free; cbn [bind]; [destruct (_ <? n); auto|]. rewrite max_fixed_spec. destruct (size <=? 7); cbn [bind]; [destruct (_ <? n); auto|].
  replace (25 <? size) with false by lia. destruct (Z.even size); cbn [bind]; destruct (_ <? n); auto.
Qed.

(** Everything refused is a ValueError. *)
Ltac refuse := unfold bad in *; try discriminate; match goal with |- Bad ?a = Bad _ -> _ => intros E; injection E as <-; eexists; reflexivity end.
Lemma bool_refuses : refuses_properly interpret_bool. Proof. intros [] e; unfold interpret_bool; refuse. Qed.
Lemma int_refuses : refuses_properly interpret_int. Proof. intros v e. unfold interpret_int. destruct (int_of v); refuse. Qed.
Lemma positive_refuses : refuses_properly interpret_positive_int.
Proof. intros v e. unfold interpret_positive_int. destruct (int_of v) as [z|]; [destruct (z <=? 0)|]; refuse. Qed.
Lemma string_refuses : refuses_properly interpret_8bit_string.
Proof. intros v e. unfold interpret_8bit_string. destruct v; try refuse; [destruct (existsb _ _); refuse|]. destruct (encode_ascii u); [destruct (existsb _ _)|]; refuse. Qed.
Lemma utf8_refuses : refuses_properly interpret_as_utf8.
Proof. intros v e. unfold interpret_as_utf8. destruct v; try refuse. destruct (utf8_decode s); refuse. Qed.
Lemma utf8_stripped_refuses : refuses_properly interpret_as_utf8_stripped.
Proof.
  intros v e. unfold interpret_as_utf8_stripped, sbind. destruct (interpret_as_utf8 v) as [r|e'] eqn:E; [destruct r; discriminate|]. intros H. apply (utf8_refuses v). congruence.
Qed.
Lemma identifier_refuses : refuses_properly interpret_identifier.
Proof.
  intros v e. assert (forall s, identifier_text s = Bad e -> exists m, e = SValue m) as T. { intros [|c s]; unfold identifier_text; [refuse|]. destruct (forallb _ _); refuse. }
  unfold interpret_identifier. destruct v; try refuse; [apply T|]. destruct (encode_ascii u); [apply T|refuse].
Qed.
Lemma colour_refuses : refuses_properly interpret_colour.
Proof. intros v e. unfold interpret_colour. destruct (lowered v); [|refuse]. destruct (_ || _); [refuse|]. destruct (_ || _); refuse. Qed.
Lemma enum_refuses values : refuses_properly (interpret_enum values).
Proof. intros v e. unfold interpret_enum. destruct (is_one_of _ _); refuse. Qed.
Lemma callable_refuses : refuses_properly interpret_callable. Proof. intros [] e; unfold interpret_callable; refuse. Qed.
Lemma sequence_refuses : refuses_properly interpret_sequence. Proof. intros v e. unfold interpret_sequence. destruct (list_of v); refuse. Qed.
Lemma quiet_config_refuses cls name allow : refuses_properly (interpret_quiet_config cls name allow).
Proof. intros v e. unfold interpret_quiet_config. destruct v; try (destruct allow; refuse). destruct (bytes_eqb _ _); [refuse|]. destruct allow; refuse. Qed.
Lemma board_size_refuses : refuses_properly interpret_board_size.
Proof. intros v e. unfold interpret_board_size. destruct (int_of v) as [z|]; [destruct (z <? 2); [|destruct (25 <? z)]|]; refuse. Qed.
Lemma candidate_colour_refuses : refuses_properly interpret_candidate_colour.
Proof. intros v e. unfold interpret_candidate_colour. destruct (is_one_of _ _); [refuse|apply colour_refuses]. Qed.
Lemma allow_none_refuses f : refuses_properly f -> refuses_properly (allow_none f).
Proof. intros R v e. unfold allow_none. destruct v; try apply R. discriminate. Qed.
Lemma sequence_of_refuses f : refuses_properly f -> refuses_properly (interpret_sequence_of f).
Proof.
  intros R v e. unfold interpret_sequence_of, sbind, interpret_sequence. destruct (list_of v) as [l|]; [|refuse].
  destruct (items_from f 0 l) as [xs|e'] eqn:E; [discriminate|]. intros H. injection H as <-. apply items_bad in E. destruct E as (l1 & x & l2 & e2 & _ & _ & B & ->).
  destruct (R _ _ B) as (m & ->). eauto.
Qed.
Lemma prefix_refuses {A} p (m : sres A) e : (forall e, m = Bad e -> exists t, e = SValue t) -> prefix_value p m = Bad e -> exists t, e = SValue t.
Proof. intros R. destruct m as [a|e']; [discriminate|]. destruct (R e' eq_refl) as (t & ->). cbn. intros E. injection E as <-. eauto. Qed.
Lemma map_of_refuses key value : refuses_properly key -> refuses_properly value -> (forall v r, key v = Good r -> exists s, r = VStr s) ->
  refuses_properly (interpret_map_of key value).
Proof.
  intros RK RV KS v e. unfold interpret_map_of, interpret_map_items, interpret_map, sbind. destruct (dict_of v) as [items|]; [|cbn; refuse]. cbn.
  assert (forall l e, map_items key value l = Bad e -> exists m, e = SValue m) as M.
  { induction l as [|[k x] l IH]; intros e1; [discriminate|]. cbn [map_items]. unfold sbind. destruct (prefix_value _ (key k)) as [k'|e2] eqn:E1.
    - apply prefix_good in E1. destruct (KS _ _ E1) as (s & ->). destruct (prefix_value _ (value x)) as [v'|e2] eqn:E2.
      + destruct (map_items key value l) as [r|e3]; [discriminate|]. intros H. injection H as <-. eauto.
      + intros H. injection H as <-. eapply prefix_refuses; [|exact E2]. apply RV.
    - intros H. injection H as <-. eapply prefix_refuses; [|exact E1]. apply RK. }
  destruct (map_items key value items) as [r|e'] eqn:E; [discriminate|]. intros H. injection H as <-. eauto.
Qed.
Lemma shlex_refuses shlex : refuses_properly (interpret_shlex_sequence shlex).
Proof.
  intros v e. unfold interpret_shlex_sequence.
  assert (forall l, match (l : list pyval) with [] => bad "empty" | _ => Good (VList l) end = Bad e -> exists m, e = SValue m) as T. { intros []; refuse. }
  assert (forall v e', (try s <- interpret_8bit_string v; match s with VStr t => match shlex t with inl l => Good (map VStr l) | inr m => Bad (SValue m) end | _ => Bad (SOther TypeError) end) = Bad e' -> exists m, e' = SValue m) as G.
  { intros w e'. destruct (interpret_8bit_string w) as [r|e2] eqn:E; cbn [sbind].
    - apply string_ok in E. destruct E as (s & _ & _ & ->). destruct (shlex s); refuse.
    - intros H. injection H as <-. exact (string_refuses _ _ E). }
  assert (forall v e', match list_of v with None => bad "not a string or a sequence" | Some l => prefix_value (str "element ") (strings_of l) end = Bad e' -> exists m, e' = SValue m) as L.
  { intros w e'. destruct (list_of w) as [l|]; [|refuse]. apply prefix_refuses. intros e2 H. apply strings_of_bad in H. destruct H as (x & _ & H). exact (string_refuses _ _ H). }
  match goal with |- sbind ?m _ = _ -> _ => assert (forall e', m = Bad e' -> exists t, e' = SValue t) as M; [|destruct m as [l'|e']; cbn [sbind]; [apply T|intros H; injection H as <-; apply M; reflexivity]] end.
  destruct v; match goal with |- forall e', match list_of ?w with _ => _ end = _ -> _ => exact (L w) | |- forall e', sbind (interpret_8bit_string ?w) _ = _ -> _ => exact (G w) | _ => idtac end.
Qed.

(** Interpreting twice is the same as interpreting once. *)
Lemma text_str s : text (VStr s) s. Proof. constructor. Qed.
Lemma bool_idem : idempotent interpret_bool. Proof. intros v r H. pose proof H as H'. apply bool_ok in H'. destruct H' as [-> _]. exact H. Qed.
Lemma int_idem : idempotent interpret_int. Proof. intros v r H. pose proof H as H'. apply int_ok in H'. destruct H' as [-> _]. exact H. Qed.
Lemma positive_idem : idempotent interpret_positive_int. Proof. intros v r H. pose proof H as H'. apply positive_ok in H'. destruct H' as [-> _]. exact H. Qed.
Lemma board_size_idem : idempotent interpret_board_size. Proof. intros v r H. pose proof H as H'. apply board_size_ok in H'. destruct H' as [-> _]. exact H. Qed.
Lemma float_idem : idempotent interpret_float.
Proof. intros v r H. apply float_ok in H. destruct H as [(-> & f & ->)|[(z & f & _ & _ & ->)|(b & _ & ->)]]; reflexivity. Qed.
Lemma string_idem : idempotent interpret_8bit_string.
Proof. intros v r H. apply string_ok in H. destruct H as (s & _ & N & ->). apply string_ok. exists s. split; [constructor|auto]. Qed.
Lemma identifier_idem : idempotent interpret_identifier.
Proof. intros v r H. apply identifier_ok in H. destruct H as (s & _ & N & ->). apply identifier_ok. exists s. split; [constructor|auto]. Qed.
Lemma colour_idem : idempotent interpret_colour.
Proof. intros v r H. apply colour_ok in H. destruct H as [[_ ->]|[_ ->]]; reflexivity. Qed.
Lemma candidate_colour_idem : idempotent interpret_candidate_colour.
Proof. intros v r H. apply candidate_colour_ok in H. destruct H as [[_ ->]|[[_ ->]|[_ ->]]]; reflexivity. Qed.
Lemma enum_idem values : idempotent (interpret_enum values).
Proof. intros v r H. pose proof H as H'. apply enum_ok in H'. destruct H' as [-> _]. exact H. Qed.
Lemma callable_idem : idempotent interpret_callable.
Proof. intros v r H. pose proof H as H'. apply callable_ok in H'. destruct H' as [-> _]. exact H. Qed.
Lemma allow_none_idem f : idempotent f -> (forall v, f v <> Good VNone) -> idempotent (allow_none f).
Proof.
  intros ID NN v r H. apply none_ok in H. destruct H as [[-> ->]|[_ H]]; [reflexivity|]. apply none_ok. right. split; [intros ->; exact (NN _ H)|]. exact (ID _ _ H).
Qed.
Lemma sequence_of_idem f : idempotent f -> idempotent (interpret_sequence_of f).
Proof.
  intros ID v r H. apply sequence_of_ok in H. destruct H as (l & xs & _ & F & ->). apply sequence_of_ok. exists xs, xs. split; [constructor|]. split; [|reflexivity].
  induction F; constructor; auto. eapply ID. eassumption.
Qed.

(** ** Maps given as dicts *)
Lemma distinct_of_nth (items : list (pyval * pyval)) :
  (forall i j a b, nth_error items i = Some a -> nth_error items j = Some b -> (i < j)%nat -> py_eqb (fst a) (fst b) = false) -> distinct_keys (map fst items).
Proof.
  induction items as [|p items IH]; intros H; [exact I|]. cbn. split.
  - intros k' I. apply in_map_iff in I. destruct I as (q & <- & I). apply In_nth_error in I. destruct I as (n & N).
    apply (H 0%nat (S n) p q); [reflexivity|exact N|lia].
  - apply IH. intros i j a b A B L. apply (H (S i) (S j) a b A B). lia.
Qed.
Lemma map_of_dict key value items r : (forall k s, key k = Good (VStr s) -> text k s) ->
  (forall i j a b, nth_error items i = Some a -> nth_error items j = Some b -> (i < j)%nat -> py_eqb (fst a) (fst b) = false) ->
  interpret_map_of key value (VDict items) = Good r ->
  exists entries, r = VList (map (fun p => VList [VStr (fst p); snd p]) entries) /\
    increasing (map fst entries) /\
    (forall s x, In (s, x) entries <-> exists k v, In (k, v) items /\ key k = Good (VStr s) /\ value v = Good x).
Proof.
  intros K D H. apply distinct_of_nth in D. unfold interpret_map_of, sbind in H. destruct (interpret_map_items key value (VDict items)) as [es|] eqn:E; [|discriminate].
  injection H as <-. exists es. split; [reflexivity|]. split.
  - exact (map_of_sorted key value (VDict items) es items K eq_refl D E).
  - apply map_of_ok in E. destruct E as (l & xs & EN & F & ->). unfold entries in EN. cbn in EN. injection EN as <-.
    intros s x. transitivity (In (s, x) xs). { split; intros I; (eapply Permutation.Permutation_in; [|exact I]); [|apply Permutation.Permutation_sym]; apply sort_items_perm. }
    clear -F. induction F as [|[k v] [s' x'] l xs [E1 E2] F IH]; [split; [intros []|intros (k & v & [] & _)]|]. cbn [fst snd] in E1, E2. cbn [In]. rewrite IH. split.
    + intros [X|(k' & v' & I & A & B)]; [injection X as <- <-; exists k, v; auto|exists k', v'; auto].
    + intros (k' & v' & [X|I] & A & B); [injection X as <- <-; left; congruence|right; eauto].
Qed.

(** ** What a successful load contains *)
Lemma loads_names ad am config settings r : loads ad am config settings r -> forall d, r = Good d -> forall name, In name (map fst d) -> In name (map st_name settings).
Proof.
  induction 1 as [|s rest x d' O L IH|s rest d' O AM L IH| | |]; intros d E; try discriminate; injection E as <-.
  - intros name [].
  - intros name [<-|I]; [left; reflexivity|right]. exact (IH d' eq_refl name I).
  - intros name I. right. exact (IH d' eq_refl name I).
Qed.
Lemma loads_value ad am config settings r : loads ad am config settings r -> forall d, r = Good d -> NoDup (map st_name settings) ->
  forall s, In s settings -> exists o, outcome ad config s (Good o) /\ dget (st_name s) d = o /\ (o = None -> am = true).
Proof.
  induction 1 as [|s rest x d' O L IH|s rest d' O AM L IH| | |]; intros d E ND; try discriminate; injection E as <-.
  - intros s [].
  - cbn [map] in ND. inversion ND as [|? ? N ND']; subst. intros s' [<-|I].
    + exists (Some x). split; [exact O|]. cbn. rewrite bytes_eqb_refl. split; [reflexivity|discriminate].
    + destruct (IH d' eq_refl ND' s' I) as (o & O' & D & A). exists o. split; [exact O'|]. cbn [dget]. destruct (bytes_eqb_spec (st_name s') (st_name s)) as [EQ|NE].
      * exfalso. apply N. rewrite <- EQ. apply in_map. exact I.
      * split; assumption.
  - cbn [map] in ND. inversion ND as [|? ? N ND']; subst. intros s' [<-|I].
    + exists None. split; [exact O|]. split; [|intros _; reflexivity]. apply dget_None. intros I. apply N. exact (loads_names _ _ _ _ _ L d' eq_refl _ I).
    + exact (IH d' eq_refl ND' s' I).
Qed.
Lemma loaded_values settings config ad am d :
  (forall s, In s settings -> forall v, st_interpreter s v <> Bad SKey) ->
  NoDup (map st_name settings) ->
  load_settings settings config ad am = Good d ->
  (forall name, In name (map fst d) -> In name (map st_name settings)) /\
  (forall s, In s settings ->
    match dget (st_name s) config with
    | Some w => exists v x, dget (st_name s) d = Some x /\ st_interpreter s v = Good x /\
                  ((v = w /\ forall cls made, w <> VProxy cls made) \/ exists cls, w = VProxy cls (inl v))
    | None => match (if ad then st_default s else None) with
              | Some x => dget (st_name s) d = Some x
              | None => am = true /\ dget (st_name s) d = None
              end
    end).
Proof.
  intros NK ND H. apply load_settings_spec in H; [|rewrite Forall_forall; exact NK]. split; [exact (loads_names _ _ _ _ _ H d eq_refl)|].
  intros s I. destruct (loads_value _ _ _ _ _ H d eq_refl ND s I) as (o & O & D & A). inversion O as [v x G EI X|x E EA ED X|E N X| | |].
  - destruct G as (w & EW & G). rewrite EW. exists v, x. split; [congruence|auto].
  - rewrite E, EA, ED. congruence.
  - rewrite E. assert (am = true /\ dget (st_name s) d = None) as R by (split; [apply A; congruence|congruence]). destruct N as [->|N]; [exact R|]. rewrite N. destruct ad; exact R.
Qed.
