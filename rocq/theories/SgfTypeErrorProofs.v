From Verif Require Import Base Bytes PyStr BoardSpec BoardModel SgfGrammarSpec SgfGrammarModel
  SgfGrammarProofs SgfTextProofs CommonModel CommonProofs DiagramProofs SgfPropsModel SgfPropsSpec
  SgfPropsProofs SgfValueSpec SgfValueProofs.

Lemma py_int_err s e : py_int s = Err e -> e = ValueError.
Proof.
  unfold py_int. destruct (strip s) as [|c r]; [congruence|].
  destruct (ceqb c "-"); [|destruct (ceqb c "+")].
  - destruct (lstrip r) as [|d r']; [congruence|]. destruct (forallb is_digit (d :: r')); congruence.
  - destruct (lstrip r) as [|d r']; [congruence|]. destruct (forallb is_digit (d :: r')); congruence.
  - destruct (forallb is_digit (c :: r)); congruence.
Qed.

Lemma interpret_real_err s e : interpret_real s = Err e -> e = ValueError.
Proof.
  unfold interpret_real, py_float. destruct (parse_sign (strip s)) as [neg r]. destruct (span_digits r) as [ip r1].
  match goal with |- context [let (_, _) := ?t in _] => destruct t as [fp r2] end.
  destruct (ip ++ fp); [cbn [bind]; congruence|]. destruct (parse_exponent r2); [|cbn [bind]; congruence].
  cbn [bind]. match goal with |- context [let (_, _) := ?t in _] => destruct t as [m k] end.
  destruct (_ <=? _); congruence.
Qed.

Lemma transcode_err s e' e : transcode s e' = Err e -> e = ValueError.
Proof.
  unfold transcode, py_decode. destruct e'.
  - destruct (utf8_decode s); cbn [bind]; congruence.
  - destruct (forallb _ s); cbn [bind py_encode]; congruence.
  - destruct (forallb _ s); cbn [bind py_encode]; congruence.
Qed.

Lemma transcode_utf8 s e t : transcode s e = Ok t -> utf8_text 1114112 t.
Proof.
  assert (forall u w, utf8 u w -> utf8_text 1114112 w) as G.
  { intros u w H. exists u. split; auto. destruct (utf8_fun _ _ H) as [_ V].
    eapply Forall_impl; [|exact V]. unfold valid_cp. lia. }
  assert (forall s', utf8_text 1114112 (utf8_encode (map ord s'))) as G2.
  { intros s'. eapply G. apply utf8_encode_spec. apply Forall_map. apply Forall_forall. intros c _.
    pose proof (ord_range c). unfold valid_cp. lia. }
  unfold transcode, py_decode. destruct e.
  - destruct (utf8_decode s) as [u|] eqn:E; cbn [bind]; [|discriminate]. intros X. injection X as <-.
    eapply G. eapply utf8_decode_sound; eauto.
  - destruct (forallb _ s); cbn [bind py_encode]; [|discriminate]. intros X. injection X as <-. apply G2.
  - destruct (forallb _ s); cbn [bind py_encode]; [|discriminate]. intros X. injection X as <-. apply G2.
Qed.

(** A value with no unescaped colon. *)
Definition uncomposed (v : bytes) : Prop := forall a b, v = a ++ ":"%char :: b -> ~ no_bare_colon a.

Lemma parse_none_uncomposed s a : parse_compose s = (a, None) -> uncomposed s.
Proof. intros E. apply C14_exact_proof in E. destruct E as [-> H]. exact H. Qed.

Lemma mapm_err {A B} (f : A -> res B) l e : mapm f l = Err e -> exists a, In a l /\ f a = Err e.
Proof.
  induction l as [|a l IH]; cbn [mapm]; [discriminate|].
  destruct (f a) as [b|e'] eqn:E; cbn [bind].
  - destruct (mapm f l); cbn [bind]; [discriminate|]. intros X. destruct (IH X) as (a' & I & H). exists a'. split; [right|]; auto.
  - intros X. exists a. split; [left; auto|]. congruence.
Qed.

Lemma interpret_arrow_err s x e : interpret_arrow s x = Err e ->
  e = ValueError \/ (e = TypeError /\ uncomposed s).
Proof.
  unfold interpret_arrow. destruct (parse_compose s) as [p1 p2] eqn:P.
  destruct (interpret_point p1 x) as [a|e'] eqn:E1; cbn [bind].
  - destruct p2 as [p2|].
    + destruct (interpret_point p2 x) eqn:E2; cbn [bind]; [discriminate|].
      intros X. injection X as <-. left. eapply interpret_point_err; eauto.
    + intros X. injection X as <-. right. split; auto. eapply parse_none_uncomposed; eauto.
  - intros X. injection X as <-. left. eapply interpret_point_err; eauto.
Qed.

Lemma interpret_label_err s x e : interpret_label s x = Err e ->
  e = ValueError \/ (e = TypeError /\ uncomposed s).
Proof.
  unfold interpret_label. destruct (parse_compose s) as [p1 p2] eqn:P.
  destruct (interpret_point p1 x) as [a|e'] eqn:E1; cbn [bind].
  - destruct p2 as [p2|].
    + unfold interpret_simpletext. destruct (transcode _ _) eqn:E2; cbn [bind]; [discriminate|].
      intros X. injection X as <-. left. eapply transcode_err; eauto.
    + intros X. injection X as <-. right. split; auto. eapply parse_none_uncomposed; eauto.
  - intros X. injection X as <-. left. eapply interpret_point_err; eauto.
Qed.

Lemma C46_proof t raw x e : interpret_as_type t raw x = Err e ->
  e = ValueError \/
  (e = TypeError /\ (t = PT_ARLN_list \/ t = PT_LB_list \/ t = PT_FG) /\ exists v, In v raw /\ uncomposed v).
Proof.
  unfold interpret_as_type. destruct raw as [|v more]; [intros X; left; congruence|].
  destruct (uses_list t) eqn:U.
  - set (raw := v :: more).
    set (raw' := match v with [] => match more with [] => [] | _ :: _ => raw end | _ :: _ => raw end).
    assert (forall w, In w raw' -> In w raw) as Sub.
    { subst raw'. intros w. destruct v; auto. destruct more; auto. contradiction. }
    change (interpret_list t raw' x = Err e -> e = ValueError \/
  (e = TypeError /\ (t = PT_ARLN_list \/ t = PT_LB_list \/ t = PT_FG) /\ exists v, In v raw /\ uncomposed v)).
    clearbody raw'.
    destruct t; try discriminate; cbn [interpret_list].
    1,2: pose proof (C17_interpret_proof raw' x) as C; destruct (interpret_point_list raw' x); cbn [bind]; [discriminate|];
      intros X; left; injection X as <-; tauto.
    + unfold interpret_ARLN_list. destruct (mapm _ raw') as [|e'] eqn:E; cbn [bind]; [discriminate|].
      intros X. injection X as ->. apply mapm_err in E. destruct E as (w & I & E).
      apply interpret_arrow_err in E. destruct E as [->|[-> N]]; auto. right. split; auto. split; auto. exists w. auto.
    + unfold interpret_LB_list. destruct (mapm _ raw') as [|e'] eqn:E; cbn [bind]; [discriminate|].
      intros X. injection X as ->. apply mapm_err in E. destruct E as (w & I & E).
      apply interpret_label_err in E. destruct E as [->|[-> N]]; auto. right. split; auto. split; auto. exists w. auto.
  - destruct more as [|? ?]; [|intros X; left; congruence].
    destruct t; try discriminate; cbn [interpret_single].
    + unfold interpret_number. destruct (py_int v) eqn:E; cbn [bind]; [discriminate|]. intros X. injection X as <-.
      left. eapply py_int_err; eauto.
    + destruct (interpret_real v) as [[m k]|] eqn:E; cbn [bind]; [discriminate|]. intros X. injection X as <-.
      left. eapply interpret_real_err; eauto.
    + unfold interpret_colour. destruct (bytes_eqb _ _); [discriminate|]. destruct (bytes_eqb _ _); [discriminate|].
      cbn [bind]. intros X. left. congruence.
    + unfold interpret_simpletext. destruct (transcode _ _) eqn:E; cbn [bind]; [discriminate|]. intros X. injection X as <-.
      left. eapply transcode_err; eauto.
    + unfold interpret_text. destruct (transcode _ _) eqn:E; cbn [bind]; [discriminate|]. intros X. injection X as <-.
      left. eapply transcode_err; eauto.
    + destruct (interpret_point v x) eqn:E; cbn [bind]; [discriminate|]. intros X. injection X as <-.
      left. eapply interpret_point_err; eauto.
    + pose proof (interpret_go_point_spec v (c_size x)) as S.
      destruct (interpret_go_point v (c_size x)); cbn [bind]; [discriminate|]. intros X. injection X as <-. tauto.
    + unfold interpret_AP. destruct (parse_compose v) as [a b]. unfold interpret_simpletext.
      destruct (transcode (simpletext_value a) _) eqn:E1; cbn [bind].
      * match goal with |- context [transcode ?u ?v] => destruct (transcode u v) eqn:E2 end; cbn [bind]; [discriminate|].
        intros X. injection X as <-. left. eapply transcode_err; eauto.
      * intros X. injection X as <-. left. eapply transcode_err; eauto.
    + unfold interpret_FG. destruct (bytes_eqb v []); [discriminate|].
      destruct (parse_compose v) as [a b] eqn:P. destruct (py_int a) eqn:E; cbn [bind].
      * destruct b as [b|].
        -- unfold interpret_simpletext. destruct (transcode _ _) eqn:E1; cbn [bind]; [discriminate|].
           intros X. injection X as <-. left. eapply transcode_err; eauto.
        -- cbn [bind]. intros X. injection X as <-. right. split; auto. split; auto. exists v. split; [left; auto|].
           eapply parse_none_uncomposed; eauto.
      * intros X. injection X as <-. left. eapply py_int_err; eauto.
Qed.

(** Text read from a property is valid UTF-8. *)
Lemma C18_utf8_proof t raw x s : interpret_as_type t raw x = Ok (VText s) -> utf8_text 1114112 s.
Proof.
  unfold interpret_as_type. destruct raw as [|v more]; [discriminate|].
  destruct (uses_list t) eqn:U.
  - generalize (match v :: more with [[]] => [] | _ => v :: more end). intros l.
    destruct t; try discriminate; cbn [interpret_list];
    match goal with |- bind ?m _ = _ -> _ => destruct m; cbn [bind]; discriminate end.
  - destruct more as [|? ?]; [|discriminate].
    destruct t; try discriminate; cbn [interpret_single];
    match goal with |- bind ?m _ = _ -> _ => destruct m as [r|] eqn:E; cbn [bind]; try discriminate | _ => idtac end.
    + destruct r; discriminate.
    + intros X. injection X as ->. eapply transcode_utf8; exact E.
    + intros X. injection X as ->. eapply transcode_utf8; exact E.
    + destruct r; discriminate.
    + destruct r; discriminate.
    + destruct r as [[? ?]|]; discriminate.
Qed.

(** Registration of property types. *)
Lemma type_lookup_filter k k' l : k <> k' ->
  type_lookup k (filter (fun kt : bytes * ptype => negb (bytes_eqb (fst kt) k')) l) = type_lookup k l.
Proof.
  intros N. induction l as [|[k2 t2] l IH]; auto. cbn [filter fst].
  destruct (bytes_eqb_spec k2 k') as [->|]; cbn [negb type_lookup].
  - destruct (bytes_eqb_spec k k'); [contradiction|auto].
  - rewrite IH. reflexivity.
Qed.

Lemma type_lookup_filter_same k l :
  type_lookup k (filter (fun kt : bytes * ptype => negb (bytes_eqb (fst kt) k)) l) = None.
Proof.
  induction l as [|[k2 t2] l IH]; auto. cbn [filter fst].
  destruct (bytes_eqb_spec k2 k) as [->|]; cbn [negb type_lookup]; auto.
  destruct (bytes_eqb_spec k k2); [congruence|auto].
Qed.

Lemma register_proof p k t :
  (forall raw, interpret (register_property k t p) k raw = interpret_as_type t raw (pr_context p)) /\
  (forall v, serialise (register_property k t p) k v = serialise_as_type t v (pr_context p)) /\
  forall k', k' <> k ->
    (forall raw, interpret (register_property k t p) k' raw = interpret p k' raw) /\
    (forall v, serialise (register_property k t p) k' v = serialise p k' v).
Proof.
  unfold interpret, serialise, effective_type, register_property. cbn [pr_types pr_context pr_default type_lookup].
  rewrite bytes_eqb_refl. cbn [bind]. split; [auto|]. split; [auto|]. intros k' N.
  destruct (bytes_eqb_spec k' k); [contradiction|]. rewrite type_lookup_filter by auto. auto.
Qed.

Lemma deregister_proof p k :
  match deregister_property k p with
  | Ok p' => (forall t, pr_default p = Some t -> forall raw, interpret p' k raw = interpret_as_type t raw (pr_context p)) /\
             (pr_default p = None -> forall raw, interpret p' k raw = Err ValueError) /\
             (forall k' raw, k' <> k -> interpret p' k' raw = interpret p k' raw)
  | Err e => e = KeyError /\ forall t, pr_default p = Some t -> forall raw, interpret p k raw = interpret_as_type t raw (pr_context p)
  end.
Proof.
  unfold deregister_property, interpret, effective_type. destruct (type_lookup k (pr_types p)) eqn:E.
  - cbn [pr_types pr_context pr_default]. rewrite type_lookup_filter_same. repeat split.
    + intros t ->. reflexivity.
    + intros ->. reflexivity.
    + intros k' raw N. rewrite type_lookup_filter by auto. reflexivity.
  - split; auto. intros t ->. reflexivity.
Qed.
