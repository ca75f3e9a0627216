(** Reading values and players (C52). *)
From Coq Require Import QArith.
From Verif Require Import Base Bytes PyStr Dict SgfPropsSpec CommonModel GameplayModel TournModel
  SettingsModel SettingsSpec SettingsProofs SettingsLoadProofs SettingsConfigProofs SettingsMoreProofs ControlModel ControlSpec.
From Verif Require GtpModel.
Open Scope Z_scope.

Lemma bind_good {A B} (m : sres A) (f : A -> sres B) b : sbind m f = Good b <-> exists a, m = Good a /\ f a = Good b.
Proof. destruct m as [a|e]; cbn [sbind]; split; try discriminate; [eauto|intros (x & E & F); congruence|intros (x & E & _); discriminate]. Qed.
Lemma control_good {A} (m : sres A) a : control_error m = Good a <-> m = Good a.
Proof. destruct m as [x|[]]; cbn; split; congruence. Qed.
Lemma any_good {A} en p (m : sres A) a : any_error en p m = Good a <-> m = Good a.
Proof. destruct m as [x|e]; cbn; split; congruence. Qed.
Lemma value_control_good {A} p (m : sres A) a : value_control p m = Good a <-> m = Good a.
Proof. destruct m as [x|[]]; cbn; split; congruence. Qed.
Lemma map_s_good {A B} (f : A -> sres B) l r : map_s f l = Good r <-> Forall2 (fun x y => f x = Good y) l r.
Proof.
  revert r. induction l as [|x l IH]; intros r; cbn [map_s].
  - split; [intros E; injection E as <-; constructor|intros F; inversion F; reflexivity].
  - rewrite bind_good. split.
    + intros (y & E & F). apply bind_good in F. destruct F as (r' & F & G). injection G as <-. constructor; [exact E|apply IH; exact F].
    + intros F. inversion F as [|? y ? r' E F']; subst. exists y. split; [exact E|]. apply bind_good. exists r'. split; [apply IH; exact F'|reflexivity].
Qed.

(** ** Loading *)
Definition loaded (config : dict pyval) (s : setting) (x : pyval) : Prop :=
  (exists v, given config (st_name s) v /\ st_interpreter s v = Good x) \/ (dget (st_name s) config = None /\ st_default s = Some x).
Definition never_keys (l : list setting) : Prop := Forall (fun s => never_key (st_interpreter s)) l.

Lemma load_good settings config d : never_keys settings ->
  load_settings settings config true false = Good d <-> Forall2 (fun s p => fst p = st_name s /\ loaded config s (snd p)) settings d.
Proof.
  intros NK. etransitivity; [apply load_settings_spec; exact NK|]. clear NK.
  revert d. induction settings as [|s l IH]; intros d.
  - split; [intros H; inversion H; constructor|intros H; inversion H; constructor].
  - split.
    + intros H. inversion H as [|s' rest x d' O L| | | |]; subst; try discriminate. constructor; [|apply IH; exact L].
      cbn [fst snd]. split; [reflexivity|]. inversion O; subst; [left; eauto|right; auto].
    + intros H. inversion H as [|s' [n x] ? d' [E L] F]; subst. cbn [fst snd] in *. subst n. apply ld_set; [|apply IH; exact F].
      destruct L as [(v & G & I)|[N D]]; [eapply oc_value; eassumption|apply oc_default; auto].
Qed.

Lemma loaded_cons config s l d : Forall2 (fun s p => fst p = st_name s /\ loaded config s (snd p)) (s :: l) d ->
  exists y d', d = (st_name s, y) :: d' /\ loaded config s y /\ Forall2 (fun s p => fst p = st_name s /\ loaded config s (snd p)) l d'.
Proof. intros H. inversion H as [|? [n y] ? d' [E L] F]; subst. cbn [fst snd] in *. subst n. eauto. Qed.
Lemma loaded_nil config d : Forall2 (fun s p => fst p = st_name s /\ loaded config s (snd p)) [] d -> d = [].
Proof. intros H. inversion H. reflexivity. Qed.

(** Without defaults. *)
Definition present (config : dict pyval) (s : setting) (x : pyval) : Prop :=
  exists v, given config (st_name s) v /\ st_interpreter s v = Good x.
Lemma given_not_none config name v : given config name v -> dget name config = None -> False.
Proof. intros (w & E & _) N. congruence. Qed.

Lemma get_here name x d : get name ((str name, x) :: d) = Good x.
Proof. unfold get. cbn [dget]. rewrite bytes_eqb_refl. reflexivity. Qed.

(** From a setting's interpreter and the conversion of its values to the meaning. *)
Definition reads {A} (f : interpreter) (conv : pyval -> sres A) (R : pyval -> A -> Prop) : Prop :=
  forall v a, (exists y, f v = Good y /\ conv y = Good a) <-> R v a.
Definition converts {A} (conv : pyval -> sres A) (o : option pyval) (default : option A) : Prop :=
  match o with None => default = None | Some y => exists a, conv y = Good a /\ default = Some a end.

Lemma value_bridge {A} config (s : setting) name (conv : pyval -> sres A) R default a :
  st_name s = str name -> reads (st_interpreter s) conv R -> converts conv (st_default s) default ->
  (exists y, loaded config s y /\ conv y = Good a) <-> value_in [config] name R default a.
Proof.
  intros N RD CV. unfold loaded. rewrite N. cbn [value_in]. split.
  - intros (y & [(v & G & I)|[D E]] & C).
    + left. exists v. split; [exact G|]. apply RD. eauto.
    + right. split; [exact D|]. rewrite E in CV. destruct CV as (a' & C' & ->). congruence.
  - intros [(v & G & H)|[D E]].
    + apply RD in H. destruct H as (y & I & C). exists y. split; [left; eauto|exact C].
    + destruct (st_default s) as [y|]; cbn in CV; [|congruence]. destruct CV as (a' & C & E'). exists y. split; [right; auto|congruence].
Qed.

(** ** Values *)
Lemma as_text_spec v s : as_text v = Good s <-> text v s.
Proof.
  unfold as_text, key_text, wrong. destruct v; try (split; [discriminate|intros H; inversion H]).
  - split; [intros E; injection E as <-; constructor|intros H; inversion H; reflexivity].
  - destruct (encode_ascii u) as [t|] eqn:E.
    + apply encode_spec in E. split; [intros X; injection X as <-; constructor; exact E|].
      intros H. f_equal. eapply text_fun; [constructor; exact E|exact H].
    + split; [discriminate|]. intros H. inversion H as [|u' s' F]; subst. apply encode_spec in F. congruence.
Qed.
Lemma as_int_spec v z : as_int v = Good z <-> int_value v z.
Proof. unfold as_int, wrong. rewrite <- int_of_iff. destruct (int_of v) as [y|]; split; congruence. Qed.
Lemma key_text_spec v s : key_text v = Some s <-> text v s.
Proof. rewrite <- as_text_spec. unfold as_text, wrong. destruct (key_text v); split; congruence. Qed.

Lemma reads_bool : reads interpret_bool as_bool bool_value.
Proof. intros v a. unfold bool_value. split; [intros (y & I & C); apply bool_ok in I; destruct I as (-> & b & ->); cbn in C; congruence|intros ->; exists (VBool a); auto]. Qed.
Lemma reads_int : reads interpret_int as_int int_value.
Proof.
  intros v a. split; [intros (y & I & C); apply int_ok in I; destruct I as (-> & _); apply as_int_spec; exact C|].
  intros H. exists v. split; [apply int_ok; eauto|apply as_int_spec; exact H].
Qed.
Lemma reads_positive : reads interpret_positive_int as_int positive_value.
Proof.
  intros v a. split.
  - intros (y & I & C). apply positive_ok in I. destruct I as (-> & z & Z1 & Z2). apply as_int_spec in C. pose proof (int_value_fun _ _ _ C Z1). subst. split; assumption.
  - intros [H P]. exists v. split; [apply positive_ok; eauto|apply as_int_spec; exact H].
Qed.
Lemma reads_size : reads interpret_board_size as_int size_value.
Proof.
  intros v a. split.
  - intros (y & I & C). apply board_size_ok in I. destruct I as (-> & z & Z1 & Z2). apply as_int_spec in C. pose proof (int_value_fun _ _ _ C Z1). subst. split; assumption.
  - intros [H P]. exists v. split; [apply board_size_ok; eauto|apply as_int_spec; exact H].
Qed.
Lemma reads_float : reads interpret_float as_float float_value.
Proof.
  intros v a. split.
  - intros (y & I & C). destruct v; cbn in I; try discriminate.
    + injection I as <-. cbn in C. injection C as <-. constructor.
    + destruct (float_of_int z) as [f|] eqn:E; [|discriminate]. injection I as <-. injection C as <-. constructor. exact E.
    + destruct (float_of_int z) as [f|] eqn:E; [|discriminate]. injection I as <-. injection C as <-. constructor. exact E.
    + injection I as <-. cbn in C. injection C as <-. constructor.
  - intros H. inversion H as [f|b|z f E|z f E]; subst; cbn [interpret_float].
    + exists (VFloat a). auto.
    + eexists. split; reflexivity.
    + rewrite E. eexists. split; reflexivity.
    + rewrite E. eexists. split; reflexivity.
Qed.
Lemma reads_string : reads interpret_8bit_string as_text string_value.
Proof.
  intros v a. split.
  - intros (y & I & C). apply string_ok in I. destruct I as (s & T & N & ->). apply as_text_spec in C. inversion C; subst. split; assumption.
  - intros [T N]. exists (VStr a). split; [apply string_ok; eauto|reflexivity].
Qed.
Lemma reads_identifier : reads interpret_identifier as_text identifier_value.
Proof.
  intros v a. split.
  - intros (y & I & C). apply identifier_ok in I. destruct I as (s & T & N & ->). apply as_text_spec in C. inversion C; subst. split; assumption.
  - intros [T N]. exists (VStr a). split; [apply identifier_ok; eauto|reflexivity].
Qed.
Lemma reads_callable : reads interpret_callable as_fun callable_value.
Proof.
  intros v a. unfold callable_value. split; [intros (y & I & C); apply callable_ok in I; destruct I as (-> & n & ->); cbn in C; congruence|].
  intros ->. exists (VFun a). auto.
Qed.
Lemma reads_none {A} f (conv : pyval -> sres A) R : (forall v, f v <> Good VNone) -> reads f conv R -> reads (allow_none f) (as_option conv) (none_or R).
Proof.
  intros NN H v a. unfold none_or. split.
  - intros (y & I & C). apply none_ok in I. destruct I as [[-> ->]|[N I]]; [cbn in C; injection C as <-; auto|]. right. split; [exact N|].
    assert (Y : y <> VNone) by (intros ->; exact (NN _ I)).
    assert (C' : exists x, conv y = Good x /\ a = Some x).
    { destruct y; try congruence; cbn [as_option] in C; apply bind_good in C; destruct C as (x & C & E); injection E as <-; eauto. }
    destruct C' as (x & C' & ->). exists x. split; [apply H; eauto|reflexivity].
  - intros [[-> ->]|(N & x & RX & ->)]; [exists VNone; auto|]. apply H in RX. destruct RX as (y & I & C).
    assert (Y : y <> VNone) by (intros ->; exact (NN _ I)). exists y. split; [apply none_ok; auto|].
    destruct y; try congruence; cbn [as_option]; rewrite C; reflexivity.
Qed.
Lemma int_not_none v : interpret_int v <> Good VNone.
Proof. intros I. apply int_ok in I. destruct I as (<- & z & Z1). inversion Z1. Qed.
Lemma positive_not_none v : interpret_positive_int v <> Good VNone.
Proof. intros I. apply positive_ok in I. destruct I as (<- & z & Z1 & _). inversion Z1. Qed.
Lemma string_not_none v : interpret_8bit_string v <> Good VNone.
Proof. intros I. apply string_ok in I. destruct I as (s & _ & _ & E). discriminate. Qed.

(** ** Commands *)
Lemma ceqb_eq a b : ceqb a b = true -> a = b.
Proof. destruct (ceqb_spec a b); congruence. Qed.
Lemma ceqb_refl a : ceqb a a = true.
Proof. destruct (ceqb_spec a a); congruence. Qed.
Lemma slash_spec s : existsb is_slash s = true <-> In "/"%char s.
Proof.
  rewrite existsb_exists. split.
  - intros (c & I & E). unfold is_slash in E. apply ceqb_eq in E. subst. exact I.
  - intros I. exists "/"%char. split; [exact I|]. apply ceqb_refl.
Qed.
Lemma absolute_spec b : (if match b with c :: _ => is_slash c | [] => false end then true else false) = true <-> absolute b.
Proof.
  unfold absolute, is_slash. destruct b as [|c t]; [split; [discriminate|intros (t & E); discriminate]|].
  destruct (ceqb c "/"%char) eqn:E.
  - apply ceqb_eq in E. subst. split; [eauto|reflexivity].
  - split; [discriminate|]. intros (t' & X). injection X as -> _. rewrite ceqb_refl in E. discriminate.
Qed.
Lemma resolve_spec_path en p r : resolve_pathname en p = Good r <-> resolved en p r.
Proof.
  unfold resolve_pathname, resolved. destruct p as [|c0 p0].
  { split; [discriminate|intros [N _]; congruence]. }
  set (p := c0 :: p0). destruct (en_expanduser en p) as [e|] eqn:X.
  2:{ split; [discriminate|]. intros (_ & e & E & _). congruence. }
  unfold path_join. pose proof (absolute_spec e) as A. destruct (match e with c :: _ => is_slash c | [] => false end).
  - assert (AB : absolute e) by (apply A; reflexivity). split.
    + intros E. injection E as <-. split; [discriminate|]. exists e. auto.
    + intros (_ & e' & E & [[_ ->]|[N _]]); [injection E as <-; reflexivity|injection E as <-; contradiction].
  - assert (AB : ~ absolute e) by (intros Y; apply A in Y; discriminate). destruct (en_base en) as [b|] eqn:EB.
    2:{ split; [discriminate|]. intros (_ & e' & E & [[Y _]|[_ (b & Y & _)]]); [injection E as <-; contradiction|discriminate]. }
    assert (B : (match rev b with [] => true | c :: _ => is_slash c end = true <-> (b = [] \/ exists t, b = t ++ str "/"))).
    { destruct (rev b) as [|c t] eqn:RB.
      - apply (f_equal (@rev ascii)) in RB. rewrite rev_involutive in RB. subst. split; auto.
      - apply (f_equal (@rev ascii)) in RB. rewrite rev_involutive in RB. cbn [rev] in RB. unfold is_slash. split.
        + intros E. apply ceqb_eq in E. subst c. right. exists (rev t). exact RB.
        + intros [->|(t' & E)]; [destruct (rev t); discriminate|]. rewrite RB in E. apply app_inj_tail in E. destruct E as [_ ->]. apply ceqb_refl. }
    destruct (match rev b with [] => true | c :: _ => is_slash c end).
    + assert (Y : b = [] \/ exists t, b = t ++ str "/") by (apply B; reflexivity). split.
      * intros E. injection E as <-. split; [discriminate|]. exists e. split; [reflexivity|]. right. split; [exact AB|]. exists b. auto.
      * intros (_ & e' & E & [[Q _]|[_ (b' & E' & [[_ ->]|(N1 & N2 & _)])]]); injection E as <-; try contradiction.
        -- injection E' as <-. reflexivity.
        -- injection E' as <-. destruct Y as [->|(t & ->)]; [congruence|exfalso; exact (N2 t eq_refl)].
    + assert (N : ~ (b = [] \/ exists t, b = t ++ str "/")) by (intros Y; apply B in Y; discriminate). split.
      * intros E. injection E as <-. split; [discriminate|]. exists e. split; [reflexivity|]. right. split; [exact AB|]. exists b. split; [reflexivity|]. right.
        split; [intros ->; apply N; auto|]. split; [intros t ->; apply N; eauto|reflexivity].
      * intros (_ & e' & E & [[Q _]|[_ (b' & E' & [[Y ->]|(N1 & N2 & ->)])]]); injection E as <-; try contradiction.
        -- injection E' as <-. contradiction.
        -- injection E' as <-. reflexivity.
Qed.

Lemma word_spec w : GtpModel.is_well_formed_gtp_word w = true <-> gtp_word_ok w.
Proof.
  unfold GtpModel.is_well_formed_gtp_word, gtp_word_ok. destruct w as [|c w]; [split; [discriminate|intros [N _]; congruence]|].
  rewrite forallb_forall. unfold GtpModel.word_char. split.
  - intros H. split; [discriminate|]. intros d I. specialize (H d I). apply Bool.orb_true_iff in H. rewrite Bool.andb_true_iff in H. lia.
  - intros [_ H] d I. specialize (H d I). apply Bool.orb_true_iff. rewrite Bool.andb_true_iff. lia.
Qed.
Lemma gtp_words_spec l ws : gtp_words l = Some ws <-> l = map VStr ws /\ Forall gtp_word_ok ws.
Proof.
  revert ws. induction l as [|v l IH]; intros ws; cbn [gtp_words].
  - split; [intros E; injection E as <-; split; [reflexivity|constructor]|intros [E _]; destruct ws; [reflexivity|discriminate]].
  - split.
    + intros E. destruct (gtp_word v) as [w|] eqn:W; [|discriminate]. destruct (gtp_words l) as [ws'|]; [|discriminate]. injection E as <-.
      destruct (proj1 (IH ws') eq_refl) as [-> F]. unfold gtp_word in W. destruct v; try discriminate.
      destruct (GtpModel.is_well_formed_gtp_word s) eqn:X; [|discriminate]. injection W as <-. split; [reflexivity|]. constructor; [apply word_spec; exact X|exact F].
    + intros [E F]. destruct ws as [|w ws]; [discriminate|]. cbn [map] in E. injection E as -> ->. inversion F as [|? ? W F']; subst.
      cbn [gtp_word]. apply word_spec in W. rewrite W. rewrite (proj2 (IH ws) (conj eq_refl F')). reflexivity.
Qed.
Lemma is_string_dec v : is_string v \/ ~ is_string v.
Proof. destruct v; try (right; intros [(x & E)|(x & E)]; discriminate); left; [left|right]; eauto. Qed.
Lemma startup_words_spec v ws : startup_words v = Some ws <-> command_words v ws /\ Forall gtp_word_ok ws.
Proof.
  assert (S : is_string v -> startup_words v = match interpret_8bit_string v with Good (VStr s) => gtp_words (map VStr (GtpModel.split_ws s)) | _ => None end).
  { intros [(s & ->)|(u & ->)]; reflexivity. }
  assert (N : ~ is_string v -> startup_words v = match list_of v with Some l => gtp_words l | None => None end).
  { intros NS. destruct v; try reflexivity; exfalso; apply NS; [left|right]; eauto. }
  unfold command_words. destruct (is_string_dec v) as [Y|Y].
  - rewrite (S Y). split.
    + destruct (interpret_8bit_string v) as [y|] eqn:I; [|discriminate]. destruct y; try discriminate. intros G. apply gtp_words_spec in G. destruct G as [E F].
      split; [|exact F]. left. split; [exact Y|]. exists s. split; [apply reads_string; exists (VStr s); auto|].
      apply (f_equal (map (fun v => match v with VStr s => s | _ => [] end))) in E. rewrite !map_map in E. cbn in E. rewrite !map_id in E. exact E.
    + intros [[(_ & s & T & <-)|[NY _]] F]; [|contradiction]. apply reads_string in T. destruct T as (y & I & C). rewrite I.
      apply string_ok in I. destruct I as (s' & _ & _ & ->). cbn in C. injection C as <-. apply gtp_words_spec. auto.
  - rewrite (N Y). split.
    + destruct (list_of v) as [l|] eqn:L; [|discriminate]. intros G. apply gtp_words_spec in G. destruct G as [-> F]. split; [|exact F].
      right. split; [exact Y|]. apply list_of_spec. exact L.
    + intros [[[NY _]|(_ & E)] F]; [contradiction|]. apply list_of_spec in E. rewrite E. apply gtp_words_spec. auto.
Qed.
Lemma startup_commands_spec en vs l : startup_commands en vs = Good l <->
  Forall2 (fun v c => command_words v (fst c :: snd c) /\ Forall gtp_word_ok (fst c :: snd c)) vs l.
Proof.
  revert l. induction vs as [|v vs IH]; intros l; cbn [startup_commands].
  - split; [intros E; injection E as <-; constructor|intros F; inversion F; reflexivity].
  - split.
    + destruct (startup_words v) as [[|w ws]|] eqn:W; [discriminate| |].
      * intros E. apply bind_good in E. destruct E as (r & E & X). injection X as <-. constructor; [|apply IH; exact E]. cbn [fst snd]. apply startup_words_spec. exact W.
      * intros E. apply bind_good in E. destruct E as (r & _ & X). discriminate.
    + intros F. inversion F as [|? [w ws] ? l' H F']; subst. cbn [fst snd] in H. apply startup_words_spec in H. rewrite H.
      rewrite (proj2 (IH l') F'). reflexivity.
Qed.

(** ** Maps of strings *)
Lemma proper_distinct v items : proper_dict v -> dict_of v = Some items -> distinct_keys (map fst items).
Proof.
  intros P D. eapply dict_of_distinct; [exact D|]. intros items' ->. apply distinct_of_nth. exact (P items' eq_refl).
Qed.
Definition pair_value (p : bytes * bytes) : pyval := VList [VStr (fst p); VStr (snd p)].
Lemma string_good v y : interpret_8bit_string v = Good y <-> exists s, y = VStr s /\ string_value v s.
Proof.
  rewrite string_ok. unfold string_value, no_nul. split; [intros (s & T & N & ->); eauto|intros (s & -> & T & N); eauto].
Qed.
Lemma increasing_same {A} (a : list (bytes * A)) : forall b, increasing (map fst a) -> increasing (map fst b) -> (forall p, In p a <-> In p b) -> a = b.
Proof.
  induction a as [|x a IH]; intros [|y b] IA IB E.
  - reflexivity.
  - exfalso. apply (E y). left. reflexivity.
  - exfalso. apply (E x). left. reflexivity.
  - cbn [map] in IA, IB. apply increasing_cons in IA, IB. destruct IA as [LA IA], IB as [LB IB].
    assert (X : x = y).
    { destruct (proj1 (E x) (or_introl eq_refl)) as [X|X]; [congruence|]. destruct (proj2 (E y) (or_introl eq_refl)) as [Y|Y]; [congruence|].
      apply (in_map fst) in X, Y. apply LB in X. apply LA in Y. pose proof (ltb_trans _ _ _ X Y) as C. rewrite ltb_irrefl in C. discriminate. }
    subst y. f_equal. apply IH; [exact IA|exact IB|]. intros p. split; intros I.
    + destruct (proj1 (E p) (or_intror I)) as [<-|J]; [|exact J]. apply (in_map fst) in I. apply LA in I. rewrite ltb_irrefl in I. discriminate.
    + destruct (proj2 (E p) (or_intror I)) as [<-|J]; [|exact J]. apply (in_map fst) in I. apply LB in I. rewrite ltb_irrefl in I. discriminate.
Qed.
Definition entry_value (p : bytes * pyval) : pyval := VList [VStr (fst p); snd p].
Lemma map_of_entries key value v items r :
  (forall k y, key k = Good y -> exists s, y = VStr s /\ text k s) -> dict_of v = Some items -> distinct_keys (map fst items) ->
  interpret_map_of key value v = Good r <->
  exists es, r = VList (map entry_value es) /\ increasing (map fst es) /\
    (forall k w, In (k, w) items -> exists s x, key k = Good (VStr s) /\ value w = Good x) /\
    (forall s x, In (s, x) es <-> exists k w, In (k, w) items /\ key k = Good (VStr s) /\ value w = Good x).
Proof.
  intros K DI DK.
  assert (KT : forall k s, key k = Good (VStr s) -> text k s).
  { intros k s E. destruct (K _ _ E) as (s' & X & T). injection X as <-. exact T. }
  assert (IN : forall xs, Forall2 (item_ok key value) items xs ->
     (forall k w, In (k, w) items -> exists s x, key k = Good (VStr s) /\ value w = Good x) /\
     forall s x, In (s, x) xs <-> exists k w, In (k, w) items /\ key k = Good (VStr s) /\ value w = Good x).
  { clear. induction 1 as [|[k w] [s x] items xs [E1 E2] F [IH1 IH2]]; cbn [fst snd] in *.
    - split; [intros k w []|]. intros s x. split; [intros []|intros (k & w & [] & _)].
    - split.
      + intros k' w' [X|I]; [injection X as <- <-; eauto|apply (IH1 k' w' I)].
      + intros s' x'. cbn [In]. rewrite IH2. split.
        * intros [X|(k' & w' & I & A & B)]; [injection X as <- <-; exists k, w; auto|exists k', w'; auto].
        * intros (k' & w' & [X|I] & A & B); [injection X as <- <-; left; congruence|right; eauto]. }
  unfold interpret_map_of. rewrite bind_good. split.
  - intros (es & E & X). injection X as <-. exists es. split; [reflexivity|].
    split; [exact (map_of_sorted key value v es items KT DI DK E)|].
    apply map_of_ok in E. destruct E as (l & xs & EN & F & ->). unfold entries in EN. assert (l = items) by congruence. subst l.
    destruct (IN xs F) as [H1 H2]. split; [exact H1|]. intros s x. rewrite <- H2.
    split; intros I; (eapply Permutation.Permutation_in; [|exact I]); [|apply Permutation.Permutation_sym]; apply sort_items_perm.
  - intros (es & -> & INC & H1 & H2).
    assert (EX : exists xs, Forall2 (item_ok key value) items xs).
    { clear -H1. induction items as [|[k w] items IH]; [exists []; constructor|]. destruct IH as (xs & F); [intros k' w' I; apply (H1 k' w'); right; exact I|].
      destruct (H1 k w (or_introl eq_refl)) as (s & x & A & B). exists ((s, x) :: xs). constructor; [split; assumption|exact F]. }
    destruct EX as (xs & F). assert (G : interpret_map_items key value v = Good (sort_items xs)) by (apply map_of_ok; exists items, xs; auto).
    exists (sort_items xs). split; [exact G|]. unfold entry_value. do 3 f_equal.
    apply increasing_same; [exact (map_of_sorted key value v _ items KT DI DK G)|exact INC|]. intros [s x]. rewrite H2, <- (proj2 (IN xs F)).
    split; intros I; (eapply Permutation.Permutation_in; [|exact I]); [|apply Permutation.Permutation_sym]; apply sort_items_perm.
Qed.
Lemma map_of_dict_of key value v r : interpret_map_of key value v = Good r -> exists items, dict_of v = Some items.
Proof.
  unfold interpret_map_of, interpret_map_items, interpret_map. destruct (dict_of v) as [items|]; [eauto|]. cbn. discriminate.
Qed.

(** [reads] for the values that satisfy [P]. *)
Definition reads_if {A} (P : pyval -> Prop) (f : interpreter) (conv : pyval -> sres A) (R : pyval -> A -> Prop) : Prop :=
  forall v a, P v -> (exists y, f v = Good y /\ conv y = Good a) <-> R v a.
Lemma value_bridge_if {A} (P : pyval -> Prop) config (s : setting) name (conv : pyval -> sres A) R default a :
  (forall v, given config (str name) v -> P v) ->
  st_name s = str name -> reads_if P (st_interpreter s) conv R -> converts conv (st_default s) default ->
  (exists y, loaded config s y /\ conv y = Good a) <-> value_in [config] name R default a.
Proof.
  intros PR N RD CV. unfold loaded. rewrite N. cbn [value_in]. split.
  - intros (y & [(v & G & I)|[D E]] & C).
    + left. exists v. split; [exact G|]. apply RD; eauto.
    + right. split; [exact D|]. rewrite E in CV. destruct CV as (a' & C' & ->). congruence.
  - intros [(v & G & H)|[D E]].
    + apply RD in H; [|auto]. destruct H as (y & I & C). exists y. split; [left; eauto|exact C].
    + destruct (st_default s) as [y|]; cbn in CV; [|congruence]. destruct CV as (a' & C & E'). exists y. split; [right; auto|congruence].
Qed.

Definition strings_in (v : pyval) : sres (list (bytes * bytes)) := try l <- pairs_in v; map_s both_texts l.
Lemma pairs_in_entries es : pairs_in (VList (map entry_value es)) = Good (map (fun p => (VStr (fst p), snd p)) es).
Proof.
  cbn [pairs_in list_of]. apply map_s_good. induction es as [|p es IH]; cbn [map]; constructor; [reflexivity|exact IH].
Qed.
Lemma strings_in_entries (l : list (bytes * bytes)) : strings_in (VList (map entry_value (map (fun p => (fst p, VStr (snd p))) l))) = Good l.
Proof.
  unfold strings_in. rewrite pairs_in_entries. cbn [sbind]. apply map_s_good. induction l as [|[a b] l IH]; cbn [map]; constructor; [reflexivity|exact IH].
Qed.
(** The interpreted maps of strings are exactly the representations of lists of pairs of
    strings. *)
Lemma map_of_strings_ok v y : proper_dict v -> map_of_strings v = Good y <->
  exists l, y = VList (map entry_value (map (fun p => (fst p, VStr (snd p))) l)) /\ strings_map v l.
Proof.
  intros P. unfold map_of_strings, strings_map. split.
  - intros H. destruct (map_of_dict_of _ _ _ _ H) as (items & DI). pose proof (proper_distinct _ _ P DI) as DK.
    apply (map_of_entries _ _ v items) in H; [|intros k z E; apply string_good in E; destruct E as (s & -> & T & _); eauto|exact DI|exact DK].
    destruct H as (es & -> & INC & H1 & H2).
    assert (EX : exists l, es = map (fun p => (fst p, VStr (snd p))) l).
    { assert (A : forall p, In p es -> exists x, snd p = VStr x).
      { intros [s x] I. apply H2 in I. destruct I as (k & w & _ & _ & E). apply string_good in E. destruct E as (t & -> & _). exists t. reflexivity. }
      clear -A. induction es as [|[s x] es IH]; [exists []; reflexivity|]. destruct IH as (l & ->); [intros p I; apply A; right; exact I|].
      destruct (A (s, x) (or_introl eq_refl)) as (t & E). cbn in E. subst x. exists ((s, t) :: l). reflexivity. }
    destruct EX as (l & ->). exists l. split; [reflexivity|]. exists items. split; [exact DI|].
    split. { intros k w I. destruct (H1 k w I) as (s & x & E1 & E2). apply string_good in E1, E2. destruct E1 as (s1 & _ & T1), E2 as (s2 & _ & T2). eauto. }
    split. { rewrite map_map in INC. exact INC. }
    intros s x. transitivity (In (s, VStr x) (map (fun p => (fst p, VStr (snd p))) l)).
    { rewrite in_map_iff. split; [intros I; exists (s, x); auto|intros ([s' x'] & E & I); cbn in E; injection E as -> ->; exact I]. }
    rewrite H2. split.
    + intros (k & w & I & E1 & E2). apply string_good in E1, E2. destruct E1 as (s1 & X1 & T1), E2 as (s2 & X2 & T2). injection X1 as <-. injection X2 as <-. eauto.
    + intros (k & w & I & T1 & T2). exists k, w. split; [exact I|]. split; apply string_good; eauto.
  - intros (l & -> & items & DI & H1 & INC & H2). apply (map_of_entries _ _ v items); [intros k z E; apply string_good in E; destruct E as (s & -> & T & _); eauto|exact DI|exact (proper_distinct _ _ P DI)|].
    eexists. split; [reflexivity|]. split; [rewrite map_map; exact INC|]. split.
    + intros k w I. destruct (H1 k w I) as (s & x & T1 & T2). exists s, (VStr x). split; apply string_good; eauto.
    + intros s x. rewrite in_map_iff. split.
      * intros ([s' x'] & E & I). cbn in E. injection E as <- <-. apply H2 in I. destruct I as (k & w & I & T1 & T2). exists k, w. split; [exact I|]. split; apply string_good; eauto.
      * intros (k & w & I & E1 & E2). apply string_good in E1, E2. destruct E1 as (s1 & X1 & T1), E2 as (s2 & -> & T2). injection X1 as <-. exists (s, s2). split; [reflexivity|]. apply H2. eauto.
Qed.
Lemma reads_strings : reads_if proper_dict map_of_strings strings_in strings_map.
Proof.
  intros v a P. split.
  - intros (y & I & C). apply map_of_strings_ok in I; [|exact P]. destruct I as (l & -> & S). rewrite strings_in_entries in C. injection C as <-. exact S.
  - intros S. eexists. split; [apply map_of_strings_ok; [exact P|]; eauto|apply strings_in_entries].
Qed.
Lemma reads_none_if {A} P f (conv : pyval -> sres A) R : (forall v, f v <> Good VNone) -> reads_if P f conv R -> reads_if P (allow_none f) (as_option conv) (none_or R).
Proof.
  intros NN H v a PV. unfold none_or. split.
  - intros (y & I & C). apply none_ok in I. destruct I as [[-> ->]|[N I]]; [cbn in C; injection C as <-; auto|]. right. split; [exact N|].
    assert (Y : y <> VNone) by (intros ->; exact (NN _ I)).
    assert (C' : exists x, conv y = Good x /\ a = Some x).
    { destruct y; try congruence; cbn [as_option] in C; apply bind_good in C; destruct C as (x & C & E); injection E as <-; eauto. }
    destruct C' as (x & C' & ->). exists x. split; [apply H; eauto|reflexivity].
  - intros [[-> ->]|(N & x & RX & ->)]; [exists VNone; auto|]. apply H in RX; [|exact PV]. destruct RX as (y & I & C).
    assert (Y : y <> VNone) by (intros ->; exact (NN _ I)). exists y. split; [apply none_ok; auto|].
    destruct y; try congruence; cbn [as_option]; rewrite C; reflexivity.
Qed.
Lemma reads_none_refused {A} P f (conv : pyval -> sres A) R : (forall a, conv VNone <> Good a) -> (forall a, ~ R VNone a) -> reads_if P f conv R -> reads_if P (allow_none f) conv R.
Proof.
  intros C0 R0 H v a PV. rewrite <- (H v a PV). split.
  - intros (y & I & C). apply none_ok in I. destruct I as [[-> ->]|[N I]]; [exfalso; exact (C0 _ C)|eauto].
  - intros (y & I & C). exists y. split; [|exact C]. apply none_ok. right. split; [|exact I]. intros ->. apply (R0 a). apply (H VNone a PV). eauto.
Qed.

(** ** The parts of a player *)
Definition command_of (en : environment) (v : pyval) : sres (list bytes) :=
  try l <- match list_of v with Some l => map_s as_text l | None => wrong end;
  match l with
  | [] => Bad (SOther IndexError)
  | c :: rest => if existsb is_slash c then try p <- resolve_pathname en c; Good (p :: rest) else Good l
  end.
Lemma reads_command en : reads (interpret_shlex_sequence (en_shlex en)) (command_of en)
  (fun v r => exists l, command_value en v l /\ command_resolved en l r).
Proof.
  intros v r. unfold command_value, is_string, string_value, no_nul.
  assert (CO : forall l, command_of en (VList (map VStr l)) = Good r <-> command_resolved en l r).
  { intros l. unfold command_of. cbn [list_of].
    assert (M : map_s as_text (map VStr l) = Good l) by (apply map_s_good; induction l; cbn [map]; constructor; auto).
    rewrite M. cbn [sbind]. unfold command_resolved. destruct l as [|c rest]; [split; [discriminate|intros (c & rest & E & _); discriminate]|].
    pose proof (slash_spec c) as SL. destruct (existsb is_slash c).
    - rewrite bind_good. split.
      + intros (p & E & X). injection X as <-. exists c, rest. split; [reflexivity|]. left. split; [apply SL; reflexivity|]. exists p. split; [apply resolve_spec_path; exact E|reflexivity].
      + intros (c' & rest' & E & [(_ & p & RP & ->)|(N & _)]); injection E as <- <-; [|exfalso; apply N, SL; reflexivity]. exists p. split; [apply resolve_spec_path; exact RP|reflexivity].
    - split.
      + intros E. injection E as <-. exists c, rest. split; [reflexivity|]. right. split; [intros I; apply SL in I; discriminate|reflexivity].
      + intros (c' & rest' & E & [(I & _)|(_ & ->)]); injection E as <- <-; [apply SL in I; discriminate|reflexivity]. }
  split.
  - intros (y & I & C). apply shlex_ok in I. destruct I as (l & NE & -> & H). exists l. split; [|apply CO; exact C]. split; [exact NE|].
    destruct H as [(t & S & T & N & E)|(vs & N1 & N2 & E & F)]; [left; eauto|right]. split; [intros [(s & X)|(u & X)]; [exact (N1 _ X)|exact (N2 _ X)]|eauto].
  - intros (l & (NE & H) & CR). exists (VList (map VStr l)). split; [|apply CO; exact CR]. apply shlex_ok. exists l. split; [exact NE|]. split; [reflexivity|].
    destruct H as [(S & t & (T & N) & E)|(N & vs & E & F)]; [left; eauto|right]. exists vs. split; [intros s ->; apply N; eauto|]. split; [intros s ->; apply N; eauto|]. auto.
Qed.

Definition path_of (en : environment) (v : pyval) : sres bytes := try s <- as_text v; resolve_pathname en s.
Lemma reads_path en : reads interpret_8bit_string (path_of en) (fun v r => exists s, string_value v s /\ resolved en s r).
Proof.
  intros v r. unfold path_of. split.
  - intros (y & I & C). apply bind_good in C. destruct C as (s & C & E). exists s. split; [apply reads_string; eauto|apply resolve_spec_path; exact E].
  - intros (s & S & E). apply reads_string in S. destruct S as (y & I & C). exists y. split; [exact I|]. apply bind_good. exists s. split; [exact C|apply resolve_spec_path; exact E].
Qed.

Definition startup_of (en : environment) (v : pyval) : sres (list (bytes * list bytes)) :=
  match list_of v with Some l => startup_commands en l | None => wrong end.
Lemma reads_startup en : reads_if (fun _ => True) (allow_none interpret_sequence) (startup_of en) startup_value.
Proof.
  apply reads_none_refused.
  - intros a. discriminate.
  - intros a (vs & E & _). inversion E.
  - intros v a _. unfold startup_value. split.
    + intros (y & I & C). apply sequence_ok in I. destruct I as (l & E & ->). exists l. split; [exact E|]. apply (startup_commands_spec en). exact C.
    + intros (vs & E & F). exists (VList vs). split; [apply sequence_ok; eauto|]. apply startup_commands_spec. exact F.
Qed.

Definition aliases_of (v : pyval) : sres (dict bytes) := try l <- pairs_in v; add_aliases l [].
Lemma increasing_nodup l : increasing l -> NoDup l.
Proof.
  induction l as [|x l IH]; intros I; [constructor|]. apply increasing_cons in I. destruct I as [L I]. constructor; [|exact (IH I)].
  intros J. apply L in J. rewrite ltb_irrefl in J. discriminate.
Qed.
Lemma add_aliases_spec l : forall acc r, NoDup (map fst acc ++ map fst l) ->
  add_aliases (map (fun p => (VStr (fst p), VStr (snd p))) l) acc = Good r <->
  r = acc ++ l /\ forall a b, In (a, b) l -> gtp_word_ok a /\ gtp_word_ok b.
Proof.
  induction l as [|[a b] l IH]; intros acc r ND; cbn [map add_aliases fst snd].
  - rewrite app_nil_r. split; [intros E; injection E as <-; split; [reflexivity|intros a b []]|intros [-> _]; reflexivity].
  - cbn [as_text key_text sbind]. pose proof (word_spec a) as WA. pose proof (word_spec b) as WB.
    destruct (GtpModel.is_well_formed_gtp_word a); cbn [negb].
    2:{ split; [discriminate|]. intros [_ H]. destruct (H a b (or_introl eq_refl)) as [X _]. apply WA in X. discriminate. }
    destruct (GtpModel.is_well_formed_gtp_word b); cbn [negb].
    2:{ split; [discriminate|]. intros [_ H]. destruct (H a b (or_introl eq_refl)) as [_ X]. apply WB in X. discriminate. }
    cbn [map fst] in ND. assert (NI : ~ In a (map fst acc)).
    { intros I. apply NoDup_remove_2 in ND. apply ND. apply in_or_app. left. exact I. }
    rewrite (dset_new a b acc NI). etransitivity; [apply IH|].
    { rewrite map_app. cbn [map fst]. rewrite <- app_assoc. exact ND. }
    rewrite <- app_assoc. cbn [app]. split; intros [-> H]; (split; [reflexivity|]).
    + intros a' b' [X|I]; [injection X as <- <-; split; [apply WA|apply WB]; reflexivity|exact (H a' b' I)].
    + intros a' b' I. apply H. right. exact I.
Qed.
Lemma reads_aliases : reads_if proper_dict (allow_none map_of_strings) aliases_of aliases_value.
Proof.
  apply reads_none_refused.
  - intros a. discriminate.
  - intros a [(items & D & _) _]. discriminate.
  - intros v a P. unfold aliases_value.
    assert (AL : forall l, NoDup (map fst l) -> aliases_of (VList (map entry_value (map (fun p => (fst p, VStr (snd p))) l))) = Good a <->
       a = l /\ forall x y, In (x, y) l -> gtp_word_ok x /\ gtp_word_ok y).
    { intros l ND. unfold aliases_of. rewrite pairs_in_entries. cbn [sbind]. rewrite map_map. cbn [fst snd]. apply (add_aliases_spec l [] a). exact ND. }
    split.
    + intros (y & I & C). apply map_of_strings_ok in I; [|exact P]. destruct I as (l & -> & S).
      assert (ND : NoDup (map fst l)) by (destruct S as (_ & _ & _ & INC & _); apply increasing_nodup; exact INC).
      apply AL in C; [|exact ND]. destruct C as [-> W]. auto.
    + intros [S W]. eexists. split; [apply map_of_strings_ok; [exact P|]; eauto|]. apply AL; [destruct S as (_ & _ & _ & INC & _); apply increasing_nodup; exact INC|auto].
Qed.
