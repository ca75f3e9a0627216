(** Proofs about colours, sequences, maps, settings and arguments (C44, C50, C51). *)
From Coq Require Import QArith Permutation.
From Verif Require Import Base Bytes PyStr Dict SgfPropsSpec SettingsModel SettingsSpec SettingsProofs.
Open Scope Z_scope.

(** ** Colours *)
Lemma lower_inv c d : is_lower d = true -> (lower_char c = d <-> c = d \/ c = upper_char d).
Proof.
  revert c d.
  assert (forall d, (if is_lower d then forallb (fun c => Bool.eqb (ceqb (lower_char c) d) (ceqb c d || ceqb c (upper_char d))) all_chars else true) = true) as H.
  { apply forall_chars. vm_compute. reflexivity. }
  intros c d L. specialize (H d). rewrite L in H. rewrite forallb_forall in H. specialize (H c (all_chars_In c)). apply Bool.eqb_prop in H.
  split.
  - intros E. destruct (ceqb_spec (lower_char c) d); [|congruence]. symmetry in H. apply orb_true_iff in H. destruct H as [H|H].
    + left. destruct (ceqb_spec c d); congruence.
    + right. destruct (ceqb_spec c (upper_char d)); congruence.
  - intros E. destruct (ceqb_spec (lower_char c) d); [assumption|]. symmetry in H. apply orb_false_iff in H. destruct H as [H1 H2].
    destruct (ceqb_spec c d), (ceqb_spec c (upper_char d)); try discriminate. destruct E; contradiction.
Qed.
Lemma spelt_spec w s : forallb is_lower w = true -> map lower_char s = w <-> spelt w s.
Proof.
  unfold spelt. revert s. induction w as [|d w IH]; intros s L.
  - split; [destruct s; [constructor|discriminate]|inversion 1; reflexivity].
  - cbn in L. apply andb_true_iff in L. destruct L as [LD LW]. split.
    + destruct s as [|c s]; [discriminate|]. cbn. intros E. assert (lower_char c = d) as E1 by congruence. assert (map lower_char s = w) as E2 by congruence.
      constructor; [apply lower_inv; assumption|apply IH; assumption].
    + intros F. inversion F as [|? c ? s' H F']; subst. cbn. f_equal; [apply lower_inv; assumption|apply IH; assumption].
Qed.
Lemma uni_lower_inv z d : is_lower d = true -> uni_lower z = ord d <-> z = ord d \/ z = ord (upper_char d) \/ (d = "i"%char /\ z = 304) \/ (d = "k"%char /\ z = 8490).
Proof.
  intros L. assert (97 <= ord d <= 122) as B by (unfold is_lower in L; lia).
  assert (ord (upper_char d) = ord d - 32) as U. { unfold upper_char. rewrite L. apply ord_chr. lia. }
  rewrite U. unfold uni_lower. split.
  - destruct (_ && _) eqn:E1; [lia|]. destruct (Z.eqb_spec z 304) as [->|N1].
    + intros E. right. right. left. split; [|reflexivity]. apply ord_inj. rewrite <- E. reflexivity.
    + destruct (Z.eqb_spec z 8490) as [->|N2]; [|lia]. intros E. right. right. right. split; [|reflexivity]. apply ord_inj. rewrite <- E. reflexivity.
  - intros [->|[->|[[-> ->]|[-> ->]]]]; try reflexivity.
    + destruct (_ && _) eqn:E1; [lia|]. destruct (Z.eqb_spec (ord d) 304); [lia|]. destruct (Z.eqb_spec (ord d) 8490); lia.
    + destruct (_ && _) eqn:E1; lia.
Qed.
Lemma uni_spelt_spec w u : forallb is_lower w = true -> encode_ascii (map uni_lower u) = Some w <-> uni_spelt w u.
Proof.
  intros L. rewrite encode_spec. unfold uni_spelt. revert u L. induction w as [|d w IH]; intros u L.
  - split; [intros F; destruct u; [constructor|inversion F]|inversion 1; constructor].
  - cbn in L. apply andb_true_iff in L. destruct L as [LD LW]. assert (ord d < 128) as B by (unfold is_lower in LD; lia). split.
    + intros F. destruct u as [|z u]; [inversion F|]. cbn in F. inversion F as [|? ? ? ? [E _] F']; subst. constructor; [apply uni_lower_inv; auto|apply IH; assumption].
    + intros F. inversion F as [|? z ? u' H F']; subst. cbn. constructor; [|apply IH; assumption]. apply uni_lower_inv in H; [|assumption]. split; [auto|lia].
Qed.
Lemma lowered_spec v w : forallb is_lower w = true -> lowered v = Some w <-> colour_word v w.
Proof.
  intros L. unfold colour_word. split.
  - destruct v as [| | | | |s|u| | | | | |]; cbn; try discriminate.
    + intros E. left. exists s. split; [reflexivity|]. apply spelt_spec; [exact L|congruence].
    + intros E. right. exists u. split; [reflexivity|]. apply uni_spelt_spec; assumption.
  - intros [(s & -> & S1)|(u & -> & S1)]; cbn.
    + apply spelt_spec in S1; [|exact L]. congruence.
    + apply uni_spelt_spec; assumption.
Qed.
Lemma colour_ok v r : interpret_colour v = Good r <->
  ((colour_word v (str "b") \/ colour_word v (str "black")) /\ r = VStr (str "b")) \/
  ((colour_word v (str "w") \/ colour_word v (str "white")) /\ r = VStr (str "w")).
Proof.
  rewrite <- !lowered_spec by reflexivity. unfold interpret_colour. destruct (lowered v) as [s|]; [|split; [discriminate|intros [[[X|X] _]|[[X|X] _]]; discriminate]].
  destruct (bytes_eqb_spec s (str "b")) as [->|N1]; [cbn; split; [intros E; injection E as <-; auto|intros [[_ ->]|[[X|X] _]]; [reflexivity|discriminate|discriminate]]|].
  destruct (bytes_eqb_spec s (str "black")) as [->|N2]; [cbn; split; [intros E; injection E as <-; auto|intros [[_ ->]|[[X|X] _]]; [reflexivity|discriminate|discriminate]]|].
  destruct (bytes_eqb_spec s (str "w")) as [->|N3]; [cbn; split; [intros E; injection E as <-; auto|intros [[[X|X] _]|[_ ->]]; [discriminate|discriminate|reflexivity]]|].
  destruct (bytes_eqb_spec s (str "white")) as [->|N4]; [cbn; split; [intros E; injection E as <-; auto|intros [[[X|X] _]|[_ ->]]; [discriminate|discriminate|reflexivity]]|].
  cbn [orb]. split; [discriminate|]. intros [[[X|X] _]|[[X|X] _]]; congruence.
Qed.

(** ** Enumerations *)
Lemma eq_str v s : py_eqb v (VStr s) = true <-> text v s.
Proof.
  split.
  - destruct v as [| | | | |t|u| | | | | |]; cbn; try discriminate.
    + destruct (bytes_eqb_spec t s); [subst; constructor|discriminate].
    + unfold str_uni_eqb. destruct (encode_ascii u) as [t|] eqn:E; [|discriminate]. destruct (bytes_eqb_spec s t); [|discriminate]. intros _. subst t. constructor. apply encode_spec. exact E.
  - destruct 1 as [t|u t F]; cbn; [apply bytes_eqb_refl|]. apply encode_spec in F. unfold str_uni_eqb. rewrite F. apply bytes_eqb_refl.
Qed.
Lemma one_of_spec values v : is_one_of values v = true <-> exists s, text v s /\ In s values.
Proof.
  unfold is_one_of. rewrite existsb_exists. split.
  - intros (s & I & E). apply eq_str in E. eauto.
  - intros (s & T & I). exists s. split; [exact I|]. apply eq_str. exact T.
Qed.
Lemma enum_ok values v r : interpret_enum values v = Good r <-> r = v /\ exists s, text v s /\ In s values.
Proof.
  unfold interpret_enum. rewrite <- one_of_spec. destruct (is_one_of values v); split; try discriminate.
  - intros E. injection E as <-. auto.
  - intros [-> _]. reflexivity.
  - intros [_ X]. discriminate.
Qed.
Lemma callable_ok v r : interpret_callable v = Good r <-> r = v /\ exists n, v = VFun n.
Proof.
  split; [destruct v; cbn; try discriminate; intros E; injection E as <-; eauto|]. intros (-> & n & ->). reflexivity.
Qed.
Lemma none_ok f v r : allow_none f v = Good r <-> (v = VNone /\ r = VNone) \/ (v <> VNone /\ f v = Good r).
Proof.
  unfold allow_none. destruct v; (split; [intros E; try (right; split; [discriminate|exact E])|intros [[E1 E2]|[N E]]; try discriminate; try exact E; try congruence]).
  left. split; [reflexivity|congruence].
Qed.

(** ** Sequences *)
Lemma list_of_spec v l : list_of v = Some l <-> elements v l.
Proof.
  split; [destruct v; cbn; try discriminate; intros E; injection E as <-; constructor|]. destruct 1; reflexivity.
Qed.
Lemma list_of_none v : list_of v = None <-> forall l, ~ elements v l.
Proof.
  split.
  - intros E l H. apply list_of_spec in H. congruence.
  - intros H. destruct (list_of v) as [l|] eqn:E; [|reflexivity]. apply list_of_spec in E. exfalso. exact (H l E).
Qed.
Lemma sequence_ok v r : interpret_sequence v = Good r <-> exists l, elements v l /\ r = VList l.
Proof.
  unfold interpret_sequence. setoid_rewrite <- list_of_spec. destruct (list_of v) as [l|]; split; try discriminate.
  - intros E. injection E as <-. eauto.
  - intros (l' & E & ->). congruence.
  - intros (l' & E & _). discriminate.
Qed.
Lemma prefix_good {A} p (m : sres A) x : prefix_value p m = Good x <-> m = Good x.
Proof. destruct m as [a|[]]; cbn; split; congruence. Qed.
Lemma items_ok item : forall l i r, items_from item i l = Good r <-> Forall2 (fun v x => item v = Good x) l r.
Proof.
  induction l as [|v l IH]; intros i r; cbn [items_from].
  - split; [intros E; injection E as <-; constructor|inversion 1; reflexivity].
  - unfold sbind. split.
    + destruct (prefix_value _ (item v)) as [x|] eqn:E1; [|discriminate]. apply prefix_good in E1.
      destruct (items_from item (S i) l) as [xs|] eqn:E2; [|discriminate]. intros H. injection H as <-. constructor; [exact E1|apply (IH (S i)); exact E2].
    + intros F. inversion F as [|? x ? xs E1 F2]; subst. apply (prefix_good (str "item " ++ str_int (Z.of_nat i) ++ str ": ")) in E1. rewrite E1.
      apply (IH (S i)) in F2. rewrite F2. reflexivity.
Qed.
Lemma items_bad item : forall l i e, items_from item i l = Bad e <->
  exists l1 v l2 e', l = l1 ++ v :: l2 /\ (forall x, In x l1 -> exists y, item x = Good y) /\ item v = Bad e' /\
    e = match e' with SValue m => SValue (str "item " ++ str_int (Z.of_nat (i + List.length l1)) ++ str ": " ++ m) | _ => e' end.
Proof.
  induction l as [|v l IH]; intros i e; cbn [items_from].
  - split; [discriminate|]. intros (l1 & v & l2 & e' & E & _). destruct l1; discriminate.
  - unfold sbind. destruct (item v) as [x|e0] eqn:EI; cbn [prefix_value].
    + destruct (items_from item (S i) l) as [xs|e2] eqn:E2.
      * split; [discriminate|]. intros (l1 & w & l2 & e' & E & G & B & _). exfalso. destruct l1 as [|y l1]; cbn in E; injection E as -> E; [congruence|].
        assert (items_from item (S i) l = Bad match e' with SValue m => SValue (str "item " ++ str_int (Z.of_nat (S i + List.length l1)) ++ str ": " ++ m) | _ => e' end) as X; [|congruence].
        apply IH. exists l1, w, l2, e'. split; [exact E|]. split; [intros z I; apply G; right; exact I|]. split; [exact B|reflexivity].
      * split.
        -- intros H. injection H as <-. apply IH in E2. destruct E2 as (l1 & w & l2 & e' & -> & G & B & ->). exists (v :: l1), w, l2, e'. split; [reflexivity|].
           split; [intros z [<-|I]; [eauto|apply G; exact I]|]. split; [exact B|]. cbn [List.length]. rewrite Nat.add_succ_r. reflexivity.
        -- intros (l1 & w & l2 & e' & E & G & B & ->). destruct l1 as [|y l1]; cbn in E; injection E as -> E; [congruence|].
           rewrite <- E2. apply IH. exists l1, w, l2, e'. split; [exact E|]. split; [intros z I; apply G; right; exact I|]. split; [exact B|]. cbn [List.length]. rewrite Nat.add_succ_r. reflexivity.
    + split.
      * intros H. exists [], v, l, e0. split; [reflexivity|]. split; [intros x []|]. split; [exact EI|]. cbn [List.length]. rewrite Nat.add_0_r. destruct e0; cbn [prefix_value] in H; try congruence. injection H as <-. rewrite <- !app_assoc. reflexivity.
      * intros (l1 & w & l2 & e' & E & G & B & ->). destruct l1 as [|y l1]; cbn in E; injection E as -> E.
        -- assert (e' = e0) as -> by congruence. cbn [List.length]. rewrite Nat.add_0_r. destruct e0; try reflexivity. rewrite <- !app_assoc. reflexivity.
        -- destruct (G y (or_introl eq_refl)) as (z & X). congruence.
Qed.
Lemma sequence_of_ok item v r : interpret_sequence_of item v = Good r <->
  exists l xs, elements v l /\ Forall2 (fun a x => item a = Good x) l xs /\ r = VList xs.
Proof.
  unfold interpret_sequence_of, sbind, interpret_sequence. setoid_rewrite <- list_of_spec. destruct (list_of v) as [l|]; cbn.
  - destruct (items_from item 0 l) as [xs|] eqn:E.
    + apply items_ok in E. split; [intros H; injection H as <-; eauto|]. intros (l' & ys & EL & F & ->). assert (l' = l) by congruence. subst l'.
      apply (items_ok item l 0) in E, F. congruence.
    + split; [discriminate|]. intros (l' & ys & EL & F & ->). assert (l' = l) by congruence. subst l'. apply (items_ok item l 0) in F. congruence.
  - split; [discriminate|]. intros (l' & ys & EL & _). discriminate.
Qed.
Lemma sequence_of_bad item v m : interpret_sequence_of item v = Bad (SValue m) ->
  (m = str "not a sequence" /\ forall l, ~ elements v l) \/
  exists l i x m', elements v l /\ nth_error l i = Some x /\ item x = Bad (SValue m') /\ m = str "item " ++ str_int (Z.of_nat i) ++ str ": " ++ m' /\
    forall j y, (j < i)%nat -> nth_error l j = Some y -> exists z, item y = Good z.
Proof.
  unfold interpret_sequence_of, sbind, interpret_sequence. destruct (list_of v) as [l|] eqn:EL; cbn.
  - destruct (items_from item 0 l) as [xs|e] eqn:E; [discriminate|]. intros H. right. apply items_bad in E. destruct E as (l1 & x & l2 & e' & -> & G & B & EE).
    assert (exists m', e' = SValue m' /\ m = str "item " ++ str_int (Z.of_nat (List.length l1)) ++ str ": " ++ m') as (m' & -> & ->).
    { destruct e'; try congruence. eexists. split; [reflexivity|]. cbn [Nat.add] in EE. congruence. }
    exists (l1 ++ x :: l2), (List.length l1), x, m'. split; [apply list_of_spec; exact EL|]. split; [rewrite nth_error_app2, Nat.sub_diag by lia; reflexivity|].
    split; [exact B|]. split; [reflexivity|]. intros j y L N. rewrite nth_error_app1 in N by exact L. apply G. eapply nth_error_In. exact N.
  - intros H. left. split; [unfold bad in H; congruence|]. apply list_of_none. exact EL.
Qed.

(** ** Sorting *)
Lemma ltb_irrefl a : bytes_ltb a a = false.
Proof. induction a as [|x a IH]; [reflexivity|]. cbn. rewrite Z.ltb_irrefl. exact IH. Qed.
Lemma ltb_trans a : forall b c, bytes_ltb a b = true -> bytes_ltb b c = true -> bytes_ltb a c = true.
Proof.
  induction a as [|x a IH]; intros [|y b] [|z c]; cbn; try discriminate; auto.
  destruct (Z.ltb_spec (ord x) (ord y)), (Z.ltb_spec (ord y) (ord z)), (Z.ltb_spec (ord y) (ord x)), (Z.ltb_spec (ord z) (ord y)); try lia; try discriminate; intros A B;
    destruct (Z.ltb_spec (ord x) (ord z)), (Z.ltb_spec (ord z) (ord x)); try lia; auto. eapply IH; eauto.
Qed.
Lemma ltb_total a : forall b, bytes_ltb a b = false -> bytes_ltb b a = false -> a = b.
Proof.
  induction a as [|x a IH]; intros [|y b]; cbn; try discriminate; auto.
  destruct (Z.ltb_spec (ord x) (ord y)), (Z.ltb_spec (ord y) (ord x)); try discriminate; intros A B. f_equal; [apply ord_inj; lia|auto].
Qed.
Lemma insert_item_perm {A} (x : bytes * A) l : Permutation (insert_item x l) (x :: l).
Proof. induction l as [|y l IH]; cbn; [reflexivity|]. destruct (bytes_ltb (fst y) (fst x)); [|reflexivity]. rewrite IH. apply perm_swap. Qed.
Lemma sort_items_perm {A} (l : list (bytes * A)) : Permutation (sort_items l) l.
Proof. induction l as [|x l IH]; [reflexivity|]. cbn. rewrite insert_item_perm. constructor. exact IH. Qed.
Lemma increasing_cons x l : increasing (x :: l) <-> (forall y, In y l -> bytes_ltb x y = true) /\ increasing l.
Proof.
  revert x. induction l as [|y l IH]; intros x.
  - cbn. split; [intros _; split; [intros y []|exact I]|intros _; split; exact I].
  - split.
    + intros [L H]. split; [|exact H]. apply IH in H. destruct H as [H _]. intros z [<-|Z1]; [exact L|]. eapply ltb_trans; [exact L|]. apply H. exact Z1.
    + intros [L H]. split; [apply L; left; reflexivity|exact H].
Qed.
Lemma insert_item_increasing {A} (x : bytes * A) l : ~ In (fst x) (map fst l) -> increasing (map fst l) -> increasing (map fst (insert_item x l)).
Proof.
  intros N H. induction l as [|y l IH]; [cbn; auto|]. cbn [map] in H, N. cbn [insert_item]. apply increasing_cons in H. destruct H as [L H].
  destruct (bytes_ltb (fst y) (fst x)) eqn:E.
  - cbn [map]. apply increasing_cons. split.
    + intros z Z1. assert (In z (map fst (x :: l))) as X. { eapply Permutation_in; [apply Permutation_map, insert_item_perm|exact Z1]. }
      destruct X as [<-|X]; [exact E|apply L; exact X].
    + apply IH; [|exact H]. intros X. apply N. right. exact X.
  - cbn [map]. assert (bytes_ltb (fst x) (fst y) = true) as XY.
    { destruct (bytes_ltb (fst x) (fst y)) eqn:E2; [reflexivity|]. exfalso. apply N. left. apply ltb_total; assumption. }
    apply increasing_cons. split; [|apply increasing_cons; split; assumption].
    intros z [<-|Z1]; [exact XY|]. eapply ltb_trans; [exact XY|]. apply L. exact Z1.
Qed.
Lemma sort_items_increasing {A} (l : list (bytes * A)) : NoDup (map fst l) -> increasing (map fst (sort_items l)).
Proof.
  induction l as [|x l IH]; intros ND; [exact I|]. cbn [map] in ND. inversion ND as [|? ? N ND']; subst. cbn. apply insert_item_increasing; [|apply IH; exact ND'].
  intros X. apply N. eapply Permutation_in; [apply Permutation_map, sort_items_perm|exact X].
Qed.

(** ** Maps *)
Definition item_ok (key value : interpreter) (p : pyval * pyval) (q : bytes * pyval) : Prop :=
  key (fst p) = Good (VStr (fst q)) /\ value (snd p) = Good (snd q).
Lemma map_items_ok key value : forall l r, map_items key value l = Good r <-> Forall2 (item_ok key value) l r.
Proof.
  induction l as [|[k v] l IH]; intros r; cbn [map_items].
  - split; [intros E; injection E as <-; constructor|inversion 1; reflexivity].
  - unfold sbind. split.
    + destruct (prefix_value _ (key k)) as [k'|] eqn:E1; [|discriminate]. apply prefix_good in E1. destruct k' as [| | | | |s| | | | | | |]; try discriminate.
      destruct (prefix_value _ (value v)) as [v'|] eqn:E2; [|discriminate]. apply prefix_good in E2.
      destruct (map_items key value l) as [xs|] eqn:E3; [|discriminate]. intros H. injection H as <-. constructor; [split; assumption|apply IH; reflexivity].
    + intros F. inversion F as [|? [s x] ? xs [E1 E2] F2]; subst. cbn [fst snd] in *. apply (prefix_good (str "bad key: ")) in E1. rewrite E1.
      apply (prefix_good (str "bad value for '" ++ s ++ str "': ")) in E2. rewrite E2. apply IH in F2. rewrite F2. reflexivity.
Qed.
Definition entries (v : pyval) (items : list (pyval * pyval)) : Prop := dict_of v = Some items.
Lemma map_of_ok key value v r : interpret_map_items key value v = Good r <->
  exists items xs, entries v items /\ Forall2 (item_ok key value) items xs /\ r = sort_items xs.
Proof.
  unfold interpret_map_items, sbind, interpret_map, entries. destruct (dict_of v) as [items|]; cbn.
  - destruct (map_items key value items) as [xs|] eqn:E.
    + pose proof E as F. apply map_items_ok in F. split; [intros H; injection H as <-; eauto|]. intros (l & ys & EL & G & ->). assert (l = items) by congruence. subst l.
      apply map_items_ok in G. congruence.
    + split; [discriminate|]. intros (l & ys & EL & G & ->). assert (l = items) by congruence. subst l. apply map_items_ok in G. congruence.
  - split; [discriminate|]. intros (l & ys & EL & _). discriminate.
Qed.
(** The keys of a dict are different; if the key interpreter gives the key's text, so are the
    results' keys. *)
Fixpoint distinct_keys (l : list pyval) : Prop :=
  match l with [] => True | k :: rest => (forall k', In k' rest -> py_eqb k k' = false) /\ distinct_keys rest end.
Lemma same_text a b s : text a s -> text b s -> py_eqb a b = true.
Proof.
  intros A B. inversion A as [x|u x F]; subst; inversion B as [y|u' y F']; subst; cbn.
  - apply bytes_eqb_refl.
  - apply encode_spec in F'. unfold str_uni_eqb. rewrite F'. apply bytes_eqb_refl.
  - apply encode_spec in F. unfold str_uni_eqb. rewrite F. apply bytes_eqb_refl.
  - assert (u = u') as ->.
    { clear -F F'. revert u' F'. induction F as [|z c u s [E L] F IH]; intros u' F'; inversion F' as [|z' ? ? ? [E' L'] F1]; subst; [reflexivity|]. f_equal. auto. }
    clear. induction u' as [|z u IH]; [reflexivity|]. cbn. rewrite Z.eqb_refl. exact IH.
Qed.
Lemma keys_nodup key value items xs : (forall k s, key k = Good (VStr s) -> text k s) -> distinct_keys (map fst items) ->
  Forall2 (item_ok key value) items xs -> NoDup (map fst xs).
Proof.
  intros K. revert xs. induction items as [|p items IH]; intros xs D F; inversion F as [|? q ? ys [E1 E2] F2]; subst; [constructor|]. cbn in D. destruct D as [D1 D2].
  cbn. constructor; [|apply IH; assumption]. intros I. apply in_map_iff in I. destruct I as (q' & EQ & IQ).
  assert (exists p', In p' items /\ item_ok key value p' q') as (p' & IP & E1' & _).
  { clear -F2 IQ. induction F2 as [|a b l m H F IH]; [contradiction|]. destruct IQ as [<-|IQ]; [exists a; split; [left; reflexivity|exact H]|]. destruct (IH IQ) as (p' & I & O). exists p'. split; [right; exact I|exact O]. }
  specialize (D1 (fst p') (in_map fst _ _ IP)). apply K in E1, E1'. rewrite EQ in E1'. rewrite (same_text _ _ _ E1 E1') in D1. discriminate.
Qed.
Lemma map_of_sorted key value v r items : (forall k s, key k = Good (VStr s) -> text k s) -> entries v items -> distinct_keys (map fst items) ->
  interpret_map_items key value v = Good r -> increasing (map fst r).
Proof.
  intros K EN D H. apply map_of_ok in H. destruct H as (l & xs & EL & F & ->). assert (l = items) by (unfold entries in *; congruence). subst l.
  apply sort_items_increasing. eapply keys_nodup; eauto.
Qed.

(** A dict made from pairs has different keys. *)
Lemma vset_distinct k v d : (forall a b, py_eqb a b = py_eqb b a) -> distinct_keys (map fst d) -> distinct_keys (map fst (vset k v d)).
Proof.
  intros SY. assert (forall x, In x (map fst (vset k v d)) -> x = k \/ In x (map fst d)) as IN.
  { induction d as [|[k' v'] d IH]; cbn; [intuition|]. destruct (py_eqb k k'); cbn; [intuition|]. intros x [<-|I]; [auto|]. apply IH in I. intuition. }
  induction d as [|[k' v'] d IH]; intros D; [cbn; intuition|]. cbn in D. destruct D as [D1 D2]. cbn. destruct (py_eqb k k') eqn:E; [cbn; auto|].
  cbn. split.
  - intros x X.
    assert (x = k \/ In x (map fst d)) as [->|X'].
    { clear -X. induction d as [|[k2 v2] d IH]; cbn in *; [intuition|]. destruct (py_eqb k k2); cbn in X; [intuition|]. destruct X as [<-|X]; [auto|]. apply IH in X. intuition. }
    + rewrite SY. exact E.
    + apply D1. exact X'.
  - apply IH; [|exact D2].
    intros x X. clear -X. induction d as [|[k2 v2] d IH]; cbn in *; [intuition|]. destruct (py_eqb k k2); cbn in X; [intuition|]. destruct X as [<-|X]; [auto|]. apply IH in X. intuition.
Qed.
Lemma codes_sym a : forall b, codes_eqb a b = codes_eqb b a.
Proof. induction a as [|x a IH]; intros [|y b]; cbn; try reflexivity. rewrite IH, Z.eqb_sym. reflexivity. Qed.
Lemma bytes_eqb_sym a b : bytes_eqb a b = bytes_eqb b a.
Proof. destruct (bytes_eqb_spec a b), (bytes_eqb_spec b a); congruence. Qed.
Lemma float_eqb_sym a b : float_eqb a b = float_eqb b a.
Proof.
  destruct a as [p|m|], b as [q|n|]; cbn; try reflexivity.
  - destruct (Qeq_bool p q) eqn:E1, (Qeq_bool q p) eqn:E2; try reflexivity.
    + apply Qeq_bool_iff in E1. symmetry in E1. apply Qeq_bool_iff in E1. congruence.
    + apply Qeq_bool_iff in E2. symmetry in E2. apply Qeq_bool_iff in E2. congruence.
  - destruct m, n; reflexivity.
Qed.
Lemma py_eqb_sym a b : py_eqb a b = py_eqb b a.
Proof.
  assert (forall x y, match number_of x, number_of y with Some p, Some q => float_eqb p q | _, _ => false end =
                      match number_of y, number_of x with Some p, Some q => float_eqb p q | _, _ => false end) as N.
  { intros x y. destruct (number_of x), (number_of y); try reflexivity. apply float_eqb_sym. }
  destruct a, b; try reflexivity; try apply codes_sym; try apply bytes_eqb_sym; try apply Nat.eqb_sym; apply N.
Qed.
Lemma dict_of_pairs_distinct l : forall acc d, distinct_keys (map fst acc) -> dict_of_pairs l acc = Some d -> distinct_keys (map fst d).
Proof.
  induction l as [|p l IH]; intros acc d D E; cbn in E; [injection E as <-; exact D|].
  destruct (list_of p) as [[|k [|v [|? ?]]]|]; try discriminate. destruct (hashable k); [|discriminate]. eapply IH; [|exact E]. apply vset_distinct; [exact py_eqb_sym|exact D].
Qed.
Lemma dict_of_distinct v d : dict_of v = Some d -> (forall items, v = VDict items -> distinct_keys (map fst items)) -> distinct_keys (map fst d).
Proof.
  intros E D. unfold dict_of in E. destruct v; try (injection E as <-; apply D; reflexivity); destruct (list_of _) as [l'|]; try discriminate; eapply dict_of_pairs_distinct; try exact E; exact I.
Qed.
