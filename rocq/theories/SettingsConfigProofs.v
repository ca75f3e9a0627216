(** Proofs about settings and arguments (C50, C51). *)
From Coq Require Import QArith Permutation.
From Verif Require Import Base Bytes PyStr Dict SgfPropsModel SgfPropsSpec SettingsModel SettingsSpec SettingsProofs SettingsLoadProofs.
Open Scope Z_scope.

(** ** load_settings *)
Definition never_key (f : interpreter) : Prop := forall v, f v <> Bad SKey.

Lemma setting_interpret_spec s v :
  setting_interpret s v =
  match st_interpreter s v with Bad (SValue m) => Bad (SValue (str "'" ++ st_name s ++ str "': " ++ m)) | r => r end.
Proof.
  unfold setting_interpret, prefix_value, quoted. destruct (st_interpreter s v) as [x|[m|m| |e]]; try reflexivity. rewrite <- !app_assoc. reflexivity.
Qed.

(** The outcome as a function. *)
Definition outcome_of (apply_defaults : bool) (config : dict pyval) (s : setting) : sres (option pyval) :=
  match (match setting_value s config with Bad SKey => if apply_defaults then get_default s else Bad SKey | r => r end) with
  | Good x => Good (Some x)
  | Bad SKey => Good None
  | Bad e => Bad e
  end.
Lemma outcome_iff ad config s r : never_key (st_interpreter s) -> outcome_of ad config s = r <-> outcome ad config s r.
Proof.
  intros NK. unfold outcome_of, setting_value. split.
  - destruct (dget (st_name s) config) as [w|] eqn:EW.
    + assert (forall v, given config (st_name s) v -> match setting_interpret s v with Good x => Good (Some x) | Bad SKey => Good None | Bad e => Bad e end = r -> outcome ad config s r) as DO.
      { intros v G. rewrite setting_interpret_spec. destruct (st_interpreter s v) as [x|[m|m| |e]] eqn:EI; intros <-.
        - eapply oc_value; eassumption.
        - eapply oc_bad_value; eassumption.
        - eapply oc_other; try eassumption. discriminate.
        - exfalso. exact (NK _ EI).
        - eapply oc_other; try eassumption. discriminate. }
      assert (forall v, match setting_interpret s v with Bad SKey => if ad then get_default s else Bad SKey | r0 => r0 end = setting_interpret s v) as SK.
      { intros v. rewrite setting_interpret_spec. destruct (st_interpreter s v) as [x|[m|m| |e]] eqn:EI; try reflexivity. exfalso. exact (NK _ EI). }
      destruct w as [| | | | | | | | | | |cls made|]; cbn [sbind]; try (rewrite SK; apply DO; exists (ltac:(match type of EW with _ = Some ?w => exact w end)); split; [exact EW|left; split; [reflexivity|discriminate]]).
      destruct made as [v|m]; cbn [resolve_proxy prefix_value sbind].
      * rewrite SK. apply DO. exists (VProxy cls (inl v)). split; [exact EW|right; exists cls; reflexivity].
      * intros <-. unfold quoted. rewrite <- !app_assoc. exact (oc_bad_proxy ad config s cls m EW).
    + unfold get_default. destruct ad; [destruct (st_default s) as [x|] eqn:ED|]; intros <-.
      * eapply oc_default; [exact EW|reflexivity|exact ED].
      * apply oc_missing; [exact EW|right; exact ED].
      * apply oc_missing; [exact EW|left; reflexivity].
  - assert (forall v, given config (st_name s) v -> match dget (st_name s) config with None => Bad SKey | Some w =>
        try v' <- match w with VProxy cls made => prefix_value (quoted (st_name s)) (resolve_proxy cls made) | _ => Good w end; setting_interpret s v' end = setting_interpret s v) as GV.
    { intros v (w & EW & [[-> NP]|[cls ->]]); rewrite EW; [|reflexivity]. destruct w; try reflexivity. exfalso. eapply NP. reflexivity. }
    destruct 1 as [v x G EI|x E -> ED|E N|v m G EI|cls m E|v e G EI NE].
    + rewrite (GV v G), setting_interpret_spec, EI. reflexivity.
    + rewrite E. unfold get_default. rewrite ED. reflexivity.
    + rewrite E. unfold get_default. destruct N as [->|N]; [reflexivity|]. rewrite N. destruct ad; reflexivity.
    + rewrite (GV v G), setting_interpret_spec, EI. reflexivity.
    + rewrite E. cbn [resolve_proxy prefix_value sbind]. unfold quoted. rewrite <- !app_assoc. reflexivity.
    + rewrite (GV v G), setting_interpret_spec, EI. destruct e as [m|m| |e]; try reflexivity; [exfalso; eapply NE; reflexivity|]. exfalso. exact (NK _ EI).
Qed.
Lemma outcome_fun ad config s r r' : never_key (st_interpreter s) -> outcome ad config s r -> outcome ad config s r' -> r = r'.
Proof. intros NK A B. apply outcome_iff in A; [|exact NK]. apply outcome_iff in B; [|exact NK]. congruence. Qed.
Lemma load_step s rest config ad am :
  load_settings (s :: rest) config ad am =
  match outcome_of ad config s with
  | Good (Some x) => try r <- load_settings rest config ad am; Good ((st_name s, x) :: r)
  | Good None => if am then load_settings rest config ad am else Bad (SValue (str "'" ++ st_name s ++ str "' not specified"))
  | Bad e => Bad e
  end.
Proof.
  cbn [load_settings]. unfold outcome_of. set (m := match setting_value s config with Bad SKey => _ | r => r end). destruct m as [x|[| | |]]; reflexivity.
Qed.
Theorem load_settings_spec settings config ad am r : Forall (fun s => never_key (st_interpreter s)) settings ->
  load_settings settings config ad am = r <-> loads ad am config settings r.
Proof.
  revert r. induction settings as [|s rest IH]; intros r F.
  - split; [intros <-; constructor|inversion 1; reflexivity].
  - inversion F as [|? ? NK F']; subst. specialize (fun r => IH r F'). rewrite load_step. pose proof (proj1 (outcome_iff ad config s _ NK) eq_refl) as O. split.
    + destruct (outcome_of ad config s) as [[x|]|e]; intros <-.
      * destruct (load_settings rest config ad am) as [d|e] eqn:E; cbn.
        -- apply ld_set; [exact O|apply IH; reflexivity].
        -- eapply ld_later; [exact O|discriminate|apply IH; reflexivity].
      * destruct am; [|apply ld_missing; [exact O|reflexivity]].
        destruct (load_settings rest config ad true) as [d|e] eqn:E.
        -- apply ld_skip; [exact O|reflexivity|apply IH; reflexivity].
        -- eapply ld_later; [exact O|reflexivity|apply IH; reflexivity].
      * apply ld_error. exact O.
    + intros L. inversion L as [|s' rest' x d O' L'|s' rest' d O' AM L'|s' rest' O' AM|s' rest' e O'|s' rest' x e O' AM L']; subst;
        try (apply IH in L'); rewrite (outcome_fun _ _ _ _ _ NK O O').
      * rewrite L'. reflexivity.
      * exact L'.
      * reflexivity.
      * reflexivity.
      * destruct x as [x|]; [rewrite L'; reflexivity|]. rewrite (AM eq_refl) in *. exact L'.
Qed.

(** ** The interpreters never raise KeyError. *)
Definition may_raise (f : interpreter) (P : serr -> Prop) : Prop := forall v e, f v = Bad e -> P e.
Lemma any_never_key : never_key interpret_any. Proof. discriminate. Qed.
Lemma bool_never_key : never_key interpret_bool. Proof. intros []; discriminate. Qed.
Lemma int_never_key : never_key interpret_int. Proof. intros v. unfold interpret_int. destruct (int_of v); discriminate. Qed.
Lemma positive_never_key : never_key interpret_positive_int.
Proof. intros v. unfold interpret_positive_int. destruct (int_of v) as [z|]; [|discriminate]. destruct (z <=? 0); discriminate. Qed.
Lemma float_never_key : never_key interpret_float.
Proof. intros v. unfold interpret_float. destruct v; try discriminate; destruct (float_of_int z); discriminate. Qed.
Lemma string_never_key : never_key interpret_8bit_string.
Proof.
  intros v. unfold interpret_8bit_string. destruct v as [| | | | |s|u| | | | | |]; try discriminate; [destruct (existsb is_nul s); discriminate|].
  destruct (encode_ascii u); [|discriminate]. destruct (existsb (Z.eqb 0) u); discriminate.
Qed.
Lemma utf8_never_key : never_key interpret_as_utf8.
Proof. intros v. unfold interpret_as_utf8. destruct v; try discriminate. destruct (utf8_decode s); discriminate. Qed.
Lemma utf8_stripped_never_key : never_key interpret_as_utf8_stripped.
Proof.
  intros v. unfold interpret_as_utf8_stripped, sbind. destruct (interpret_as_utf8 v) as [r|e] eqn:E; [destruct r; discriminate|]. intros H. apply (utf8_never_key v). congruence.
Qed.
Lemma identifier_never_key : never_key interpret_identifier.
Proof.
  intros v. assert (forall s, identifier_text s <> Bad SKey) as T. { intros [|c s]; [discriminate|]. unfold identifier_text. destruct (forallb _ _); discriminate. }
  unfold interpret_identifier. destruct v as [| | | | |s|u| | | | | |]; try discriminate; [apply T|]. destruct (encode_ascii u); [apply T|discriminate].
Qed.
Lemma colour_never_key : never_key interpret_colour.
Proof.
  intros v. unfold interpret_colour. destruct (lowered v) as [s|]; [|discriminate]. destruct (_ || _); [discriminate|]. destruct (_ || _); discriminate.
Qed.
Lemma enum_never_key values : never_key (interpret_enum values).
Proof. intros v. unfold interpret_enum. destruct (is_one_of values v); discriminate. Qed.
Lemma callable_never_key : never_key interpret_callable. Proof. intros []; discriminate. Qed.
Lemma sequence_never_key : never_key interpret_sequence.
Proof. intros v. unfold interpret_sequence. destruct (list_of v); discriminate. Qed.
Lemma prefix_key {A} p (m : sres A) : prefix_value p m = Bad SKey -> m = Bad SKey.
Proof. destruct m as [|[]]; cbn; congruence. Qed.
Lemma sequence_of_never_key item : never_key item -> never_key (interpret_sequence_of item).
Proof.
  intros NK v. unfold interpret_sequence_of, sbind, interpret_sequence. destruct (list_of v) as [l|]; [|discriminate].
  destruct (items_from item 0 l) as [xs|e] eqn:E; [discriminate|]. intros H. assert (e = SKey) by congruence. subst e. apply items_bad in E.
  destruct E as (l1 & x & l2 & e' & _ & _ & B & EE). destruct e'; try discriminate. exact (NK _ B).
Qed.
Lemma quiet_config_never_key cls name allow : never_key (interpret_quiet_config cls name allow).
Proof. intros v. unfold interpret_quiet_config. destruct v; try (destruct allow; discriminate). destruct (bytes_eqb _ _); [discriminate|]. destruct allow; discriminate. Qed.
Lemma map_items_never_key key value l : never_key key -> never_key value -> map_items key value l <> Bad SKey.
Proof.
  intros K V. induction l as [|[k v] l IH]; [discriminate|]. cbn [map_items]. unfold sbind.
  destruct (prefix_value _ (key k)) as [k'|e] eqn:E1.
  - destruct k' as [| | | | |s| | | | | | |]; try discriminate. destruct (prefix_value _ (value v)) as [v'|e] eqn:E2.
    + destruct (map_items key value l); [discriminate|]. congruence.
    + intros H. assert (e = SKey) by congruence. subst e. apply prefix_key in E2. exact (V _ E2).
  - intros H. assert (e = SKey) by congruence. subst e. apply prefix_key in E1. exact (K _ E1).
Qed.
Lemma map_of_never_key key value : never_key key -> never_key value -> never_key (interpret_map_of key value).
Proof.
  intros K V v. unfold interpret_map_of, interpret_map_items, interpret_map, sbind. destruct (dict_of v) as [items|]; [|discriminate]. cbn.
  pose proof (map_items_never_key key value items K V). destruct (map_items key value items); [discriminate|]. congruence.
Qed.
Lemma allow_none_never_key f : never_key f -> never_key (allow_none f).
Proof. intros NK v. unfold allow_none. destruct v; try apply NK. discriminate. Qed.
Lemma strings_of_bad l e : strings_of l = Bad e -> exists v, In v l /\ interpret_8bit_string v = Bad e.
Proof.
  induction l as [|v l IH]; [discriminate|]. cbn. unfold sbind. destruct (interpret_8bit_string v) eqn:E.
  - destruct (strings_of l); [discriminate|]. intros H. assert (e0 = e) by congruence. subst. destruct (IH eq_refl) as (w & I & EW). eauto.
  - intros H. exists v. split; [left; reflexivity|congruence].
Qed.
Lemma shlex_never_key shlex : never_key (interpret_shlex_sequence shlex).
Proof.
  assert (forall l, match (l : list pyval) with [] => bad "empty" | _ => Good (VList l) end <> Bad SKey) as T. { intros []; discriminate. }
  assert (forall v, (try s <- interpret_8bit_string v; match s with VStr t => match shlex t with inl l => Good (map VStr l) | inr m => Bad (SValue m) end | _ => Bad (SOther TypeError) end) <> Bad SKey) as G.
  { intros v. unfold sbind. destruct (interpret_8bit_string v) as [r|e] eqn:E.
    - destruct r as [| | | | |s| | | | | | |]; try discriminate. destruct (shlex s); discriminate.
    - intros H. apply (string_never_key v). congruence. }
  assert (forall v, match list_of v with None => bad "not a string or a sequence" | Some l => prefix_value (str "element ") (strings_of l) end <> Bad SKey) as L.
  { intros v. destruct (list_of v) as [l|]; [|discriminate]. intros H. apply prefix_key in H. apply strings_of_bad in H. destruct H as (w & _ & H). exact (string_never_key _ H). }
  intros v. unfold interpret_shlex_sequence.
  destruct v;
    (match goal with |- sbind ?m _ <> _ => assert (m <> Bad SKey) as M by (try apply (G (VStr s)); try apply (G (VUni u)); match goal with |- match list_of ?w with _ => _ end <> _ => apply (L w) | _ => idtac end);
      destruct m as [l'|e']; [apply T|cbn; congruence] end).
Qed.

(** ** Command lines *)
Lemma strings_of_ok l r : strings_of l = Good r <-> Forall2 (fun v x => interpret_8bit_string v = Good x) l r.
Proof.
  revert r. induction l as [|v l IH]; intros r; cbn.
  - split; [intros E; injection E as <-; constructor|inversion 1; reflexivity].
  - unfold sbind. split.
    + destruct (interpret_8bit_string v) eqn:E; [|discriminate]. destruct (strings_of l); [|discriminate]. intros H. injection H as <-. constructor; [exact E|apply IH; reflexivity].
    + intros F. inversion F as [|? x ? xs E1 F2]; subst. rewrite E1. apply IH in F2. rewrite F2. reflexivity.
Qed.

Lemma shlex_ok shlex v r : interpret_shlex_sequence shlex v = Good r <->
  exists l, l <> [] /\ r = VList (map VStr l) /\
   ((exists t, ((exists s, v = VStr s) \/ (exists u, v = VUni u)) /\ text v t /\ (forall c, In c t -> ord c <> 0) /\ shlex t = inl l) \/
    (exists vs, (forall s, v <> VStr s) /\ (forall u, v <> VUni u) /\ elements v vs /\
       Forall2 (fun x s => text x s /\ forall c, In c s -> ord c <> 0) vs l)).
Proof.
  assert (forall l : list pyval, match l with [] => bad "empty" | _ => Good (VList l) end = Good r <-> l <> [] /\ r = VList l) as T.
  { intros [|x l]; split; try discriminate; [intros [X _]; congruence|intros E; injection E as <-; split; [discriminate|reflexivity]|intros [_ ->]; reflexivity]. }
  assert (forall vs xs, Forall2 (fun a x => interpret_8bit_string a = Good x) vs xs <->
     exists l, xs = map VStr l /\ Forall2 (fun x s => text x s /\ forall c, In c s -> ord c <> 0) vs l) as FS.
  { intros vs xs. split.
    - induction 1 as [|a x vs xs E F (l & -> & F2)]; [exists []; split; constructor|]. apply string_ok in E. destruct E as (s & T1 & NN & ->).
      exists (s :: l). split; [reflexivity|constructor; auto].
    - intros (l & -> & F). induction F as [|a s vs l [T1 NN] F IH]; [constructor|]. cbn. constructor; [|exact IH]. apply string_ok. eauto. }
  unfold interpret_shlex_sequence.
  assert (forall (isstr : (exists s, v = VStr s) \/ (exists u, v = VUni u)),
     (try result <- (try s <- interpret_8bit_string v; match s with VStr t => match shlex t with inl l => Good (map VStr l) | inr m => Bad (SValue m) end | _ => Bad (SOther TypeError) end);
      match result with [] => bad "empty" | _ => Good (VList result) end) = Good r <->
     exists l, l <> [] /\ r = VList (map VStr l) /\
       (exists t, ((exists s, v = VStr s) \/ (exists u, v = VUni u)) /\ text v t /\ (forall c, In c t -> ord c <> 0) /\ shlex t = inl l)) as STR.
  { intros isstr. split.
    - destruct (interpret_8bit_string v) as [x|] eqn:E; [|discriminate]. apply string_ok in E. destruct E as (s & T1 & NN & ->). cbn [sbind].
      destruct (shlex s) as [l|m] eqn:ES; [|discriminate]. cbn [sbind]. intros H. apply T in H. destruct H as [NE ->]. exists l.
      split; [intros ->; apply NE; reflexivity|]. split; [reflexivity|]. exists s. auto.
    - intros (l & NE & -> & t & _ & T1 & NN & ES). assert (interpret_8bit_string v = Good (VStr t)) as -> by (apply string_ok; eauto). cbn [sbind]. rewrite ES. cbn [sbind].
      apply T. split; [|reflexivity]. destruct l; [congruence|discriminate]. }
  assert (forall (N1 : forall s, v <> VStr s) (N2 : forall u, v <> VUni u),
     (try result <- match list_of v with None => bad "not a string or a sequence" | Some l => prefix_value (str "element ") (strings_of l) end;
      match result with [] => bad "empty" | _ => Good (VList result) end) = Good r <->
     exists l, l <> [] /\ r = VList (map VStr l) /\
       (exists vs, (forall s, v <> VStr s) /\ (forall u, v <> VUni u) /\ elements v vs /\
       Forall2 (fun x s => text x s /\ forall c, In c s -> ord c <> 0) vs l)) as SEQ.
  { intros N1 N2. split.
    - destruct (list_of v) as [vs|] eqn:E; [|discriminate]. destruct (strings_of vs) as [xs|e] eqn:ES.
      + cbn [prefix_value sbind]. intros H. apply T in H. destruct H as [NE ->]. apply strings_of_ok in ES. apply FS in ES. destruct ES as (l & -> & F).
        exists l. split; [intros ->; apply NE; reflexivity|]. split; [reflexivity|]. exists vs. split; [exact N1|]. split; [exact N2|]. split; [apply list_of_spec; exact E|exact F].
      + destruct e; cbn [prefix_value sbind]; discriminate.
    - intros (l & NE & -> & vs & _ & _ & EL & F). apply list_of_spec in EL. rewrite EL. assert (strings_of vs = Good (map VStr l)) as -> by (apply strings_of_ok, FS; eauto).
      cbn [prefix_value sbind]. apply T. split; [|reflexivity]. destruct l; [congruence|discriminate]. }
  destruct v as [| | | | |s0|u0| | | | | |]; try (etransitivity; [apply SEQ; discriminate|]; (split; intros (l9 & NE & -> & H); exists l9; (split; [exact NE|]); (split; [reflexivity|]));
    [right; exact H|destruct H as [(t & [(s1 & X)|(u1 & X)] & _)|H]; [discriminate|discriminate|exact H]]).
  - etransitivity; [apply STR; eauto|]. (split; intros (l9 & NE & -> & H); exists l9; (split; [exact NE|]); (split; [reflexivity|])); [left; exact H|].
    destruct H as [H|(vs & N1 & _)]; [exact H|]. exfalso. eapply N1. reflexivity.
  - etransitivity; [apply STR; eauto|]. (split; intros (l9 & NE & -> & H); exists l9; (split; [exact NE|]); (split; [reflexivity|])); [left; exact H|].
    destruct H as [H|(vs & _ & N2 & _)]; [exact H|]. exfalso. eapply N2. reflexivity.
Qed.

(** ** Arguments *)
Lemma is_name_spec n l : is_name n l = true <-> In n l.
Proof.
  unfold is_name. rewrite existsb_exists. split; [intros (x & I & E); destruct (bytes_eqb_spec n x); [subst; exact I|discriminate]|intros I; exists n; split; [exact I|apply bytes_eqb_refl]].
Qed.
Lemma dmem_spec {A} k (d : dict A) : dmem k d = true <-> In k (map fst d).
Proof.
  unfold dmem. destruct (dget k d) eqn:E.
  - split; [intros _|reflexivity]. apply dget_In in E. apply in_map with (f := fst) in E. exact E.
  - apply dget_None in E. split; [discriminate|]. intros I. contradiction.
Qed.
Lemma add_keywords_ok allowed kwargs : forall result d, NoDup (map fst kwargs) ->
  add_keywords allowed kwargs result = Good d <->
  (forall n, In n (map fst kwargs) -> In n allowed) /\ (forall n, In n (map fst kwargs) -> ~ In n (map fst result)) /\ d = result ++ kwargs.
Proof.
  induction kwargs as [|[n v] l IH]; intros result d ND; cbn [add_keywords].
  - split; [intros E; injection E as <-; rewrite app_nil_r; split; [intros n []|split; [intros n []|reflexivity]]|intros (_ & _ & ->); rewrite app_nil_r; reflexivity].
  - cbn [map fst] in ND. inversion ND as [|? ? NI ND']; subst. destruct (is_name n allowed) eqn:EN; cbn [negb].
    + destruct (dmem n result) eqn:EM.
      * split; [discriminate|]. intros (_ & X & _). exfalso. apply (X n); [left; reflexivity|apply dmem_spec; exact EM].
      * assert (~ In n (map fst result)) as NR by (intros I; apply dmem_spec in I; congruence).
        rewrite IH by exact ND'. rewrite dset_new by exact NR. rewrite <- app_assoc. cbn [app map fst]. apply is_name_spec in EN. split.
        -- intros (A1 & A2 & ->). split; [intros m [<-|I]; auto|]. split; [|reflexivity]. intros m [<-|I]; [exact NR|]. intros J. apply (A2 m I). rewrite map_app. apply in_or_app. left. exact J.
        -- intros (A1 & A2 & ->). split; [intros m I; apply A1; right; exact I|]. split; [|reflexivity]. intros m I J. rewrite map_app in J. apply in_app_or in J. destruct J as [J|[<-|[]]]; [apply (A2 m); [right; exact I|exact J]|contradiction].
    + split; [discriminate|]. intros (X & _). specialize (X n (or_introl eq_refl)). apply is_name_spec in X. congruence.
Qed.
Lemma zip_set (names : list bytes) (vals : list pyval) : forall acc, NoDup (map fst acc ++ names) ->
  fold_left (fun d p => dset (fst p) (snd p) d) (combine names vals) acc = acc ++ combine names vals.
Proof.
  revert vals. induction names as [|n names IH]; intros [|v vals] acc ND; cbn; try (rewrite app_nil_r; reflexivity).
  assert (~ In n (map fst acc)) as NI. { intros I. apply NoDup_remove_2 in ND. apply ND. apply in_or_app. left. exact I. }
  rewrite dset_new by exact NI. rewrite IH.
  - rewrite <- app_assoc. reflexivity.
  - rewrite map_app. cbn. rewrite <- app_assoc. exact ND.
Qed.
Lemma combine_keys {A B} (a : list A) (b : list B) : map fst (combine a b) = firstn (List.length b) a.
Proof. revert b. induction a as [|x a IH]; intros [|y b]; cbn; try reflexivity. f_equal. apply IH. Qed.
Lemma in_combine_nth {A B} (a : list A) (b : list B) x y : In (x, y) (combine a b) <-> exists i, nth_error a i = Some x /\ nth_error b i = Some y.
Proof.
  revert b. induction a as [|x' a IH]; intros [|y' b]; cbn.
  - split; [intros []|intros ([|i] & E & _); discriminate].
  - split; [intros []|intros ([|i] & E & _); discriminate].
  - split; [intros []|intros ([|i] & _ & E); discriminate].
  - rewrite IH. split.
    + intros [E|(i & E1 & E2)]; [injection E as -> ->; exists 0%nat; split; reflexivity|exists (S i); split; assumption].
    + intros ([|i] & E1 & E2); [left; cbn in *; congruence|right; exists i; split; assumption].
Qed.
Theorem resolve_spec q args kwargs : NoDup (qc_positional q) -> NoDup (map fst kwargs) ->
  (forall d, resolve_arguments q args kwargs = Good d ->
     arguments_ok q args kwargs /\ NoDup (map fst d) /\ forall name v, dget name d = Some v <-> argument q args kwargs name v) /\
  (arguments_ok q args kwargs -> exists d, resolve_arguments q args kwargs = Good d).
Proof.
  intros NP NK. pose proof (sort_items_perm kwargs) as PS.
  assert (NoDup (map fst (sort_items kwargs))) as NS. { eapply Permutation_NoDup; [apply Permutation_sym, Permutation_map, PS|exact NK]. }
  assert (forall n, In n (map fst (sort_items kwargs)) <-> In n (map fst kwargs)) as IS.
  { intros n. split; intros I; (eapply Permutation_in; [|exact I]); [|apply Permutation_sym]; apply Permutation_map, PS. }
  assert (forall n, In n (map fst kwargs) <-> exists v, In (n, v) kwargs) as IK.
  { intros n. rewrite in_map_iff. split; [intros ([n' v] & <- & I); eauto|intros (v & I); exists (n, v); auto]. }
  unfold resolve_arguments. rewrite zip_set by (cbn; exact NP). cbn [app].
  destruct (Nat.ltb_spec (List.length (qc_positional q)) (List.length args)) as [L|L].
  - split; [discriminate|]. intros (X & _). lia.
  - split.
    + intros d E. apply add_keywords_ok in E; [|exact NS]. destruct E as (A1 & A2 & ->). rewrite combine_keys in A2.
      split; [split; [exact L|split]|].
      * intros n v I. apply A1, IS, IK. eauto.
      * intros n v I. apply A2, IS, IK. eauto.
      * assert (NoDup (map fst (combine (qc_positional q) args ++ sort_items kwargs))) as ND.
        { rewrite map_app, combine_keys. clear -NP NS A2. revert NP A2. generalize (List.length args). generalize (qc_positional q).
          intros l n NP A2. assert (NoDup (firstn n l)) as NF. { rewrite <- (firstn_skipn n l) in NP. revert NP. generalize (firstn n l), (skipn n l). intros a b. induction a as [|x a IH]; [constructor|]. cbn. intros ND. inversion ND; subst. constructor; [|auto]. intros I. apply H1. apply in_or_app. left. exact I. }
          clear NP. revert A2. generalize (firstn n l) NF. intros a NA A2. clear NF. induction a as [|x a IH]; [exact NS|]. cbn. inversion NA; subst. constructor.
          - intros I. apply in_app_or in I. destruct I as [I|I]; [contradiction|]. apply (A2 x I). left. reflexivity.
          - apply IH; [assumption|]. intros m I J. apply (A2 m I). right. exact J. }
        split; [exact ND|]. intros n v. unfold argument. rewrite <- in_combine_nth. split.
        -- intros E. apply dget_In in E. apply in_app_or in E. destruct E as [E|E]; [left; exact E|right]. eapply Permutation_in; [exact PS|exact E].
        -- intros I. apply In_dget; [exact ND|]. apply in_or_app. destruct I as [I|I]; [left; exact I|right]. eapply Permutation_in; [apply Permutation_sym, PS|exact I].
    + intros (_ & A1 & A2). eexists. apply add_keywords_ok; [exact NS|]. split; [|split; [|reflexivity]].
      * intros n I. apply IS, IK in I. destruct I as (v & I). exact (A1 n v I).
      * intros n I. apply IS, IK in I. destruct I as (v & I). rewrite combine_keys. exact (A2 n v I).
Qed.
(** The errors. *)
Lemma add_keywords_bad allowed kwargs : forall result e, add_keywords allowed kwargs result = Bad e ->
  exists n, In n (map fst kwargs) /\ ((e = SValue (str "unknown argument '" ++ n ++ str "'") /\ ~ In n allowed) \/
    (e = SValue (n ++ str " specified as both positional and keyword argument") /\ In n allowed /\ dmem n result = true)) \/
    (exists n', e = SValue (n' ++ str " specified as both positional and keyword argument") /\ ~ NoDup (map fst kwargs)).
Proof.
  induction kwargs as [|[n v] l IH]; intros result e; cbn [add_keywords]; [discriminate|].
  destruct (is_name n allowed) eqn:EN; cbn [negb].
  - destruct (dmem n result) eqn:EM.
    + intros H. exists n. left. split; [left; reflexivity|]. right. split; [congruence|]. split; [apply is_name_spec; exact EN|exact EM].
    + intros H. apply IH in H. destruct H as (n' & [[I [[-> N]|(-> & A & M)]]|(n2 & -> & ND)]).
      * exists n'. left. split; [right; exact I|]. left. auto.
      * destruct (bytes_eqb_spec n' n) as [->|NE].
        -- exists n. right. exists n. split; [reflexivity|]. cbn. intros X. inversion X; subst. contradiction.
        -- exists n'. left. split; [right; exact I|]. right. split; [reflexivity|]. split; [exact A|]. unfold dmem in *. rewrite dget_dset_other in M by exact NE. exact M.
      * exists n'. right. exists n2. split; [reflexivity|]. cbn. intros X. inversion X; subst. contradiction.
  - intros H. exists n. left. split; [left; reflexivity|]. left. split; [congruence|]. intros I. apply is_name_spec in I. congruence.
Qed.
Lemma resolve_bad q args kwargs e : NoDup (qc_positional q) -> NoDup (map fst kwargs) -> resolve_arguments q args kwargs = Bad e ->
  (e = SValue (str "too many positional arguments") /\ (List.length (qc_positional q) < List.length args)%nat) \/
  (exists n v, In (n, v) kwargs /\ ~ In n (qc_positional q ++ qc_keyword q) /\ e = SValue (str "unknown argument '" ++ n ++ str "'")) \/
  (exists n v, In (n, v) kwargs /\ In n (firstn (List.length args) (qc_positional q)) /\
     e = SValue (n ++ str " specified as both positional and keyword argument")).
Proof.
  intros NP NK. unfold resolve_arguments. destruct (Nat.ltb_spec (List.length (qc_positional q)) (List.length args)) as [L|L].
  - intros H. left. split; [unfold bad in H; congruence|exact L].
  - rewrite zip_set by (cbn; exact NP). cbn [app]. intros H. right. apply add_keywords_bad in H.
    assert (forall n, In n (map fst (sort_items kwargs)) -> exists v, In (n, v) kwargs) as IK.
    { intros n I. assert (In n (map fst kwargs)) as J by (eapply Permutation_in; [apply Permutation_map, sort_items_perm|exact I]). apply in_map_iff in J. destruct J as ([n' v] & <- & J). eauto. }
    destruct H as (n & [[I [[-> N]|(-> & A & M)]]|(n2 & -> & ND)]).
    + left. destruct (IK n I) as (v & J). eauto.
    + right. destruct (IK n I) as (v & J). exists n, v. split; [exact J|]. split; [|reflexivity]. apply dmem_spec in M. rewrite combine_keys in M. exact M.
    + exfalso. apply ND. eapply Permutation_NoDup; [apply Permutation_sym, Permutation_map, sort_items_perm|exact NK].
Qed.
Lemma get_key_spec q args kwargs n rest v : qc_positional q = n :: rest -> NoDup (qc_positional q) -> NoDup (map fst kwargs) -> arguments_ok q args kwargs ->
  get_key q args kwargs = Some v <-> argument q args kwargs n v.
Proof.
  intros EP NP NK (L & A1 & A2). unfold get_key, argument. rewrite EP in *. destruct args as [|a args].
  - split.
    + intros E. right. apply dget_In. exact E.
    + intros [(i & _ & E)|I]; [destruct i; discriminate|]. apply In_dget; assumption.
  - split.
    + intros E. left. exists 0%nat. split; [reflexivity|exact E].
    + intros [(i & E1 & E2)|I].
      * destruct i; [exact E2|]. cbn in E1. apply nth_error_In in E1. inversion NP; subst. contradiction.
      * exfalso. apply (A2 n v I). left. reflexivity.
Qed.
