(** Pathnames of a competition, and its control file's type (C69). *)
From Verif Require Import Base Bytes PyStr Dict DiagramProofs RingModel RingFilesModel RingFilesSpec.

(** ** Splitting pathnames *)

Lemma cut_none c s : cut_last c s = None <-> ~ In c s.
Proof.
  induction s as [|x r IH]; cbn [cut_last In]; [tauto|]. destruct (cut_last c r) as [[a b]|].
  - split; [discriminate|]. intros H. exfalso. assert (~ In c r) as N by tauto. apply IH in N. discriminate.
  - destruct (ceqb_spec x c) as [->|N].
    + split; [discriminate|]. intros H. exfalso. apply H. auto.
    + split; auto. intros _ [H|H]; [auto|]. apply IH; auto.
Qed.
Lemma cut_some c s a b : cut_last c s = Some (a, b) <-> exists a', a = a' ++ [c] /\ s = a' ++ c :: b /\ ~ In c b.
Proof.
  revert a b. induction s as [|x r IH]; intros a b; cbn [cut_last].
  - split; [discriminate|]. intros (a' & _ & E & _). destruct a'; discriminate.
  - destruct (cut_last c r) as [[a0 b0]|] eqn:E.
    + split.
      * intros H. injection H as <- <-. destruct (proj1 (IH a0 b0) eq_refl) as (a' & -> & -> & N). exists (x :: a'). auto.
      * intros (a' & -> & H & N). destruct a' as [|y a']; cbn in H; injection H as -> ->.
        -- exfalso. assert (cut_last c b = None) as X by (apply cut_none; auto). congruence.
        -- assert (Some (a0, b0) = Some (a' ++ [c], b)) as X by (apply IH; exists a'; auto). injection X as -> ->. reflexivity.
    + destruct (ceqb_spec x c) as [->|NE].
      * split.
        -- intros H. injection H as <- <-. exists []. split; auto. split; auto. apply cut_none. auto.
        -- intros (a' & -> & H & N). destruct a' as [|y a']; cbn in H; inversion H; subst.
           ++ reflexivity.
           ++ exfalso. apply cut_none in E. apply E. apply in_or_app. right. left. auto.
      * split; [discriminate|]. intros (a' & -> & H & N). exfalso. apply cut_none in E. destruct a' as [|y a']; cbn in H; inversion H; subst; [auto|].
        apply E. apply in_or_app. right. left. auto.
Qed.

Lemma all_slash s : forallb (fun c => ceqb c slash) s = true <-> (forall c, In c s -> c = "/"%char).
Proof.
  rewrite forallb_forall. split; intros H c I; specialize (H c I); destruct (ceqb_spec c slash) as [E|N]; auto; try discriminate; contradiction.
Qed.

Lemma strip_slashes_app s r : (forall c, In c s -> c = "/"%char) -> strip_slashes (s ++ r) = strip_slashes r.
Proof.
  induction s as [|c s IH]; intros H; auto. cbn [app strip_slashes]. rewrite (H c (or_introl eq_refl)). cbn. apply IH. intros x I. apply H. right. auto.
Qed.
Lemma rstrip_dir d c s : c <> "/"%char -> (forall x, In x s -> x = "/"%char) -> rstrip_slashes ((d ++ [c]) ++ s) = d ++ [c].
Proof.
  intros N H. unfold rstrip_slashes. rewrite rev_app_distr, strip_slashes_app.
  - rewrite rev_app_distr. cbn [rev app strip_slashes]. destruct (ceqb_spec c slash) as [E|_]; [contradiction|]. cbn [rev]. rewrite rev_involutive. reflexivity.
  - intros x I. apply H. apply in_rev. auto.
Qed.

Lemma slashes_snoc s : slashes s -> exists s', s = s' ++ ["/"%char].
Proof.
  intros [N H]. destruct (exists_last N) as (s' & c & ->). exists s'. rewrite (H c) by (apply in_or_app; right; left; auto). reflexivity.
Qed.

Lemma split_names p d f : names p d f -> os_split p = (d, f).
Proof.
  intros H. unfold os_split. inversion H as [f0 P|s f0 S P|d0 c s f0 N S P]; subst.
  - assert (cut_last slash f = None) as -> by (apply cut_none; exact P). reflexivity.
  - destruct (slashes_snoc _ S) as (s' & ->). assert (cut_last slash ((s' ++ ["/"%char]) ++ f) = Some (s' ++ ["/"%char], f)) as ->.
    { apply cut_some. exists s'. split; auto. split; auto. rewrite <- app_assoc. reflexivity. }
    assert (forallb (fun c => ceqb c slash) (s' ++ ["/"%char]) = true) as -> by (apply all_slash; apply S). reflexivity.
  - destruct (slashes_snoc _ S) as (s' & ->). assert (cut_last slash ((d0 ++ [c]) ++ (s' ++ ["/"%char]) ++ f) = Some ((d0 ++ [c]) ++ s' ++ ["/"%char], f)) as ->.
    { apply cut_some. exists ((d0 ++ [c]) ++ s'). split; [apply app_assoc|]. split; auto. rewrite <- !app_assoc. reflexivity. }
    assert (forallb (fun c => ceqb c slash) ((d0 ++ [c]) ++ s' ++ ["/"%char]) = false) as ->.
    { apply Bool.not_true_is_false. intros X. apply N. eapply (proj1 (all_slash _)); eauto. apply in_or_app. left. apply in_or_app. right. left. auto. }
    f_equal. apply rstrip_dir; auto. apply S.
Qed.

Lemma span_slashes s : exists d t, s = d ++ t /\ (forall c, In c t -> c = "/"%char) /\ (d = [] \/ exists d' c, d = d' ++ [c] /\ c <> "/"%char).
Proof.
  induction s as [|x s IH] using rev_ind; [exists [], []; repeat split; auto; intros c []|].
  destruct (ascii_dec x "/"%char) as [->|N].
  - destruct IH as (d & t & -> & T & D). exists d, (t ++ ["/"%char]). split; [rewrite app_assoc; reflexivity|]. split; auto.
    intros c I. apply in_app_or in I. destruct I as [I|[I|[]]]; auto.
  - exists (s ++ [x]), []. split; [rewrite app_nil_r; reflexivity|]. split; [intros c []|]. right. exists s, x. auto.
Qed.

Lemma names_total p : exists d f, names p d f.
Proof.
  destruct (cut_last slash p) as [[h f]|] eqn:E.
  - apply cut_some in E. destruct E as (h' & -> & -> & N). destruct (span_slashes (h' ++ [slash])) as (d & t & E & T & D).
    assert (slashes t) as St.
    { split; auto. intros ->. rewrite app_nil_r in E. destruct D as [->|(d' & c & -> & Nc)]; [destruct h'; discriminate|].
      apply app_inj_tail in E. destruct E as [_ E]. apply Nc. symmetry. exact E. }
    replace (h' ++ slash :: f) with ((h' ++ [slash]) ++ f) by (rewrite <- app_assoc; reflexivity). rewrite E. destruct D as [->|(d' & c & -> & Nc)].
    + exists t, f. apply in_root; auto.
    + exists (d' ++ [c]), f. rewrite <- app_assoc. apply in_dir; auto.
  - exists [], p. apply in_cwd. apply cut_none. auto.
Qed.

Lemma names_split p d f : names p d f <-> os_split p = (d, f).
Proof.
  split; [apply split_names|]. intros E. destruct (names_total p) as (d' & f' & H). rewrite (split_names _ _ _ H) in E. injection E as -> ->. exact H.
Qed.

(** ** Extensions *)
Lemma all_dots s : forallb (fun c => ceqb c dot) s = true <-> only_dots s.
Proof.
  rewrite forallb_forall. split; intros H c I; specialize (H c I); destruct (ceqb_spec c dot) as [E|N]; auto; try discriminate; contradiction.
Qed.
Lemma splitext_has f : has_extension f (fst (splitext f)) (snd (splitext f)).
Proof.
  unfold splitext. destruct (cut_last dot f) as [[h t]|] eqn:E.
  - apply cut_some in E. destruct E as (h' & -> & -> & N). rewrite removelast_last. destruct (forallb _ h') eqn:F; cbn [fst snd].
    + split; [rewrite app_nil_r; reflexivity|]. right. split; auto. intros code' t' E N'.
      assert (cut_last dot (h' ++ dot :: t) = Some (h' ++ [dot], t)) as C1 by (apply cut_some; exists h'; auto).
      assert (cut_last dot (h' ++ dot :: t) = Some (code' ++ [dot], t')) as C2 by (apply cut_some; exists code'; auto).
      assert (h' ++ [dot] = code' ++ [dot]) as X by congruence. apply app_inj_tail in X. destruct X as [<- _]. apply all_dots. auto.
    + split; auto. left. exists t. split; auto. split; auto. rewrite <- all_dots. congruence.
  - cbn [fst snd]. split; [rewrite app_nil_r; reflexivity|]. right. split; auto. intros code' t' -> N'. exfalso. apply cut_none in E. apply E. apply in_or_app. right. left. auto.
Qed.
Lemma has_splitext f code ext : has_extension f code ext -> splitext f = (code, ext).
Proof.
  intros [E [(t & -> & N & O)|[-> H]]]; subst f; unfold splitext.
  - assert (cut_last dot (code ++ dot :: t) = Some (code ++ [dot], t)) as C1 by (apply cut_some; exists code; auto).
    unfold dot in C1 at 2. rewrite C1, removelast_last. destruct (forallb _ code) eqn:F; [|reflexivity]. apply all_dots in F. contradiction.
  - rewrite app_nil_r in *. destruct (cut_last dot code) as [[h t]|] eqn:E; auto. apply cut_some in E. destruct E as (h' & -> & -> & N).
    rewrite removelast_last. assert (forallb (fun c => ceqb c dot) h' = true) as -> by (apply all_dots; eapply H; eauto). reflexivity.
Qed.

Lemma forbidden_extensions : forbidden = extensions.
Proof. reflexivity. Qed.

(** An extension is a dot and letters. *)
Lemma extension_shape e : In e extensions -> exists t, e = "."%char :: t /\ ~ In "."%char t /\ plain t /\ t <> [].
Proof.
  intros H. repeat (destruct H as [<-|H]; [eexists; split; [reflexivity|]; split; [|split]; try discriminate; intros H'; vm_compute in H'; intuition discriminate|]). destruct H.
Qed.
Lemma extension_unique code1 e1 code2 e2 : In e1 extensions -> In e2 extensions -> code1 ++ e1 = code2 ++ e2 -> code1 = code2 /\ e1 = e2.
Proof.
  intros I1 I2 E. destruct (extension_shape _ I1) as (t1 & -> & N1 & _). destruct (extension_shape _ I2) as (t2 & -> & N2 & _).
  assert (cut_last dot (code1 ++ dot :: t1) = Some (code1 ++ [dot], t1)) as C1 by (apply cut_some; exists code1; auto).
  assert (cut_last dot (code2 ++ dot :: t2) = Some (code2 ++ [dot], t2)) as C2 by (apply cut_some; exists code2; auto).
  unfold dot in *. rewrite E in C1. assert (code1 ++ ["."%char] = code2 ++ ["."%char] /\ t1 = t2) as [X ->] by (split; congruence).
  apply app_inj_tail in X. destruct X as [-> _]. auto.
Qed.

(** ** The files *)
Lemma join_names d f : plain f -> f <> [] -> (d = [] \/ slashes d \/ exists d' c, d = d' ++ [c] /\ c <> "/"%char) -> names (join_path d f) d f.
Proof.
  intros P NE D. destruct f as [|x f]; [congruence|].
  assert (x <> "/"%char) as Nx by (intros ->; apply P; left; auto).
  assert ((match rev d with [] => x :: f | c :: _ => if ceqb c slash then d ++ x :: f else d ++ slash :: x :: f end) = join_path d (x :: f)) as E.
  { unfold join_path. destruct x as [[] [] [] [] [] [] [] []]; try reflexivity. congruence. }
  assert (names (match rev d with [] => x :: f | c :: _ => if ceqb c slash then d ++ x :: f else d ++ slash :: x :: f end) d (x :: f)) as H.
  { destruct D as [->|[S|(d' & c & -> & Nc)]].
    - apply in_cwd; auto.
    - destruct (slashes_snoc _ S) as (s' & ->). rewrite rev_app_distr. cbn [rev app]. change (ceqb "/"%char slash) with true. cbn iota. apply in_root; auto.
    - rewrite rev_app_distr. cbn [rev app]. destruct (ceqb_spec c slash) as [E'|_]; [contradiction|].
      apply (in_dir d' c [slash] (x :: f)); auto. split; [discriminate|]. intros y [<-|[]]. reflexivity. }
  rewrite <- E. exact H.
Qed.

Lemma names_dir p d f : names p d f -> plain f /\ (d = [] \/ slashes d \/ exists d' c, d = d' ++ [c] /\ c <> "/"%char).
Proof. intros H. inversion H; subst; split; auto. right. right. eauto. Qed.

Lemma join_app d f g : f <> [] -> join_path d f ++ g = join_path d (f ++ g).
Proof.
  intros N. unfold join_path. destruct f as [|x f]; [congruence|]. cbn [app].
  destruct x as [[] [] [] [] [] [] [] []]; try reflexivity; destruct (rev d) as [|c r]; try reflexivity; destruct (ceqb c slash); rewrite <- ?app_assoc; reflexivity.
Qed.

Lemma C69_files_proof ctl d f code ext : names ctl d f -> f <> [] -> has_extension f code ext ->
  match competition_files ctl with
  | Err e => e = RingmasterError /\ In ext extensions
  | Ok n => ~ In ext extensions /\ p_control n = ctl /\ p_code n = code /\
      Forall2 (fun p e => names p d (code ++ e)) (generated n) extensions
  end.
Proof.
  intros Nm NE HE. unfold competition_files. rewrite (split_names _ _ _ Nm), (has_splitext _ _ _ HE).
  destruct (existsb (bytes_eqb ext) forbidden) eqn:X.
  - split; auto. apply existsb_exists in X. destruct X as (e & I & E). destruct (bytes_eqb_spec ext e) as [->|]; [|discriminate]. exact I.
  - assert (~ In ext extensions) as NI.
    { intros I. assert (existsb (bytes_eqb ext) forbidden = true) as Y; [|congruence]. apply existsb_exists. exists ext. split; [exact I|apply bytes_eqb_refl]. }
    split; auto. split; auto. split; auto. destruct (names_dir _ _ _ Nm) as [P D].
    assert (code <> []) as NC.
    { intros ->. destruct HE as [-> [(t & -> & _ & O)|[-> _]]]; [apply O; intros c []|]. apply NE. reflexivity. }
    assert (plain code) as PC by (intros I; apply P; rewrite (proj1 HE); apply in_or_app; auto).
    assert (forall e, In e extensions -> names (join_path d code ++ e) d (code ++ e)) as K.
    { intros e I. rewrite join_app by auto. destruct (extension_shape _ I) as (t & -> & _ & Pt & _). apply join_names; auto.
      - intros H. apply in_app_or in H. destruct H as [H|[H|H]]; [auto|discriminate|auto].
      - destruct code; discriminate. }
    unfold generated. cbn [p_log p_status p_command p_history p_report p_sgf_dir p_void_dir p_gtplog_dir].
    unfold extensions, file_extensions, directory_extensions. cbn [map app].
    repeat (apply Forall2_cons; [apply K; vm_compute; intuition|]). apply Forall2_nil.
Qed.

(** ** The generated pathnames are distinct *)
Lemma names_fun p d f d' f' : names p d f -> names p d' f' -> d = d' /\ f = f'.
Proof. intros H H'. apply names_split in H. apply names_split in H'. split; congruence. Qed.


Lemma F2_In {A B} (R : A -> B -> Prop) l l' x : Forall2 R l l' -> In x l -> exists y, In y l' /\ R x y.
Proof. intros F. induction F as [|a b l l' H F IH]; intros I; [destruct I|]. destruct I as [->|I]; [exists b; split; [left|]; auto|]. destruct (IH I) as (y & ? & ?). exists y. split; [right|]; auto. Qed.
Lemma F2_In_r {A B} (R : A -> B -> Prop) l l' y : Forall2 R l l' -> In y l' -> exists x, In x l /\ R x y.
Proof. intros F. induction F as [|a b l l' H F IH]; intros I; [destruct I|]. destruct I as [->|I]; [exists a; split; [left|]; auto|]. destruct (IH I) as (x & ? & ?). exists x. split; [right|]; auto. Qed.

Lemma files_ok ctl d f n : competition_files ctl = Ok n -> names ctl d f -> f <> [] ->
  exists ext, has_extension f (p_code n) ext /\ ~ In ext extensions /\ p_control n = ctl /\ Forall2 (fun p e => names p d (p_code n ++ e)) (generated n) extensions.
Proof.
  intros E Nm NE. pose proof (splitext_has f) as HE. pose proof (C69_files_proof ctl d f _ _ Nm NE HE) as H. rewrite E in H.
  destruct H as (NI & C & PC & F). rewrite PC. exists (snd (splitext f)). auto.
Qed.

Lemma extensions_nodup : NoDup extensions.
Proof. repeat constructor; vm_compute; intuition discriminate. Qed.

Lemma F2_nodup {A B} (R : A -> B -> Prop) l l' : (forall a b b', R a b -> R a b' -> b = b') -> Forall2 R l l' -> NoDup l' -> NoDup l.
Proof.
  intros U F. induction F as [|a b l l' H F IH]; intros N; constructor.
  - intros I. inversion N as [|? ? NI N']; subst. destruct (F2_In _ _ _ _ F I) as (y & Iy & Ry). apply NI. rewrite (U _ _ _ H Ry). exact Iy.
  - apply IH. inversion N; auto.
Qed.

Lemma C69_distinct_proof ctl d f n : competition_files ctl = Ok n -> names ctl d f -> f <> [] -> NoDup (ctl :: generated n).
Proof.
  intros E Nm NE. destruct (files_ok _ _ _ _ E Nm NE) as (ext & HE & NI & _ & F). constructor.
  - intros I. destruct (F2_In _ _ _ _ F I) as (e & Ie & Ne). destruct (names_fun _ _ _ _ _ Nm Ne) as [_ X]. rewrite (proj1 HE) in X.
    apply app_inv_head in X. apply NI. rewrite X. exact Ie.
  - eapply F2_nodup; [|exact F|apply extensions_nodup]. intros a b b' H H'. destruct (names_fun _ _ _ _ _ H H') as [_ X]. apply app_inv_head in X. exact X.
Qed.

Lemma Forall2_nth {A B} (R : A -> B -> Prop) l l' k x y : Forall2 R l l' -> nth_error l k = Some x -> nth_error l' k = Some y -> R x y.
Proof.
  intros F. revert k. induction F as [|a b l l' H F IH]; intros k; destruct k; cbn; try discriminate; [|eauto]. intros E1 E2. injection E1 as <-. injection E2 as <-. exact H.
Qed.

(** ** Two competitions *)
Lemma C69_shared_proof ctl1 d1 f1 n1 ctl2 d2 f2 n2 :
  competition_files ctl1 = Ok n1 -> names ctl1 d1 f1 -> f1 <> [] ->
  competition_files ctl2 = Ok n2 -> names ctl2 d2 f2 -> f2 <> [] ->
  (forall p, In p (generated n1) -> In p (generated n2) -> d1 = d2 /\ p_code n1 = p_code n2) /\
  (d1 = d2 -> p_code n1 = p_code n2 -> generated n1 = generated n2) /\
  (In ctl2 (generated n1) -> only_dots (p_code n1)).
Proof.
  intros E1 Nm1 NE1 E2 Nm2 NE2. destruct (files_ok _ _ _ _ E1 Nm1 NE1) as (ext1 & HE1 & NI1 & _ & F1). destruct (files_ok _ _ _ _ E2 Nm2 NE2) as (ext2 & HE2 & NI2 & _ & F2).
  split; [|split].
  - intros p I1 I2. destruct (F2_In _ _ _ _ F1 I1) as (e1 & Ie1 & Ne1). destruct (F2_In _ _ _ _ F2 I2) as (e2 & Ie2 & Ne2).
    destruct (names_fun _ _ _ _ _ Ne1 Ne2) as [-> X]. split; auto. apply (extension_unique _ _ _ _ Ie1 Ie2 X).
  - intros D C. subst d2. revert E1 E2. unfold competition_files. rewrite (split_names _ _ _ Nm1), (split_names _ _ _ Nm2).
    rewrite (has_splitext _ _ _ HE1), (has_splitext _ _ _ HE2). destruct (existsb (bytes_eqb ext1) forbidden); [discriminate|]. destruct (existsb (bytes_eqb ext2) forbidden); [discriminate|].
    rewrite <- C. intros H1 H2. assert (forall a b : pathnames, Ok a = Ok b -> a = b) as J by congruence. apply J in H1. apply J in H2. rewrite <- H1, <- H2. reflexivity.
  - intros I. destruct (F2_In _ _ _ _ F1 I) as (e & Ie & Ne). destruct (names_fun _ _ _ _ _ Nm2 Ne) as [_ X].
    destruct (forallb (fun c => ceqb c dot) (p_code n1)) eqn:O; [apply all_dots; auto|]. exfalso. apply NI2.
    destruct (extension_shape _ Ie) as (t & -> & Nt & _ & _).
    assert (has_extension f2 (p_code n1) ("."%char :: t)) as H. { split; auto. left. exists t. split; auto. split; auto. rewrite <- all_dots. congruence. }
    apply has_splitext in H. apply has_splitext in HE2. assert (ext2 = "."%char :: t) as -> by congruence. exact Ie.
Qed.

(** ** Deleting the files *)
Lemma has_prefix_spec p s : has_prefix p s = true <-> exists r, s = p ++ r.
Proof.
  revert s. induction p as [|a p IH]; intros s; cbn [has_prefix].
  - split; auto. intros _. exists s. reflexivity.
  - destruct s as [|b s]; [split; [discriminate|intros [r H]; discriminate]|]. destruct (ceqb_spec a b) as [E|N]; cbn [andb].
    + subst b. rewrite IH. split; intros [r H]; exists r; [rewrite H; reflexivity|]. injection H as ->. reflexivity.
    + split; [discriminate|]. intros [r H]. injection H as -> _. congruence.
Qed.
Lemma within_spec p q : bytes_eqb q p || inside p q = true <-> within p q.
Proof.
  unfold within, inside. rewrite Bool.orb_true_iff, has_prefix_spec. destruct (bytes_eqb_spec q p) as [E|N].
  - split; auto.
  - split; intros [H|[r H]]; try discriminate; try contradiction; right; exists r; rewrite H, <- ?app_assoc; try reflexivity.
Qed.

Lemma remove_file_spec keep p f q : remove_file keep p f q = f q \/ (remove_file keep p f q = None /\ q = p /\ keep q = false /\ exists c, f p = Some (File c)).
Proof.
  unfold remove_file. destruct (f p) as [[c|]|]; auto. destruct (keep p) eqn:K; auto. destruct (bytes_eqb_spec q p) as [->|]; auto. right. eauto.
Qed.
Lemma remove_tree_spec keep p f q : remove_tree keep p f q = f q \/ (remove_tree keep p f q = None /\ within p q /\ keep q = false /\ f p = Some Dir).
Proof.
  unfold remove_tree. destruct (f p) as [[c|]|]; auto. destruct (bytes_eqb q p || inside p q) eqn:W; cbn [andb]; auto.
  destruct (keep q) eqn:K; auto. right. apply within_spec in W. auto.
Qed.
Lemma remove_files_spec keep ps f q : let f' := fold_left (fun f p => remove_file keep p f) ps f in
  f' q = f q \/ (f' q = None /\ In q ps /\ keep q = false /\ exists c, f q = Some (File c)).
Proof.
  cbn zeta. revert f. induction ps as [|p ps IH]; intros f; [auto|]. cbn [fold_left].
  destruct (IH (remove_file keep p f)) as [H|(H & I & K & c & E)]; destruct (remove_file_spec keep p f q) as [H2|(H2 & -> & K2 & c2 & E2)].
  - left. congruence.
  - right. split; [congruence|]. split; [left; auto|]. split; auto. exists c2. exact E2.
  - right. split; auto. split; [right; auto|]. split; auto. exists c. congruence.
  - congruence.
Qed.
Lemma remove_trees_spec keep ps f q : let f' := fold_left (fun f p => remove_tree keep p f) ps f in
  f' q = f q \/ (f' q = None /\ keep q = false /\ exists p, In p ps /\ within p q /\ f p = Some Dir).
Proof.
  cbn zeta. revert f. induction ps as [|p ps IH]; intros f; [auto|]. cbn [fold_left].
  destruct (IH (remove_tree keep p f)) as [H|(H & K & p' & I & W & E)].
  - destruct (remove_tree_spec keep p f q) as [H2|(H2 & W2 & K2 & E2)]; [left; congruence|]. right. split; [congruence|]. split; auto. exists p. split; [left|]; auto.
  - right. split; auto. split; auto. exists p'. split; [right; auto|]. split; auto.
    destruct (remove_tree_spec keep p f p') as [H3|(H3 & _)]; congruence.
Qed.


Lemma C69_only_proof keep n f q : let f' := delete_state_and_output keep n f in
  f' q = f q \/ (f' q = None /\ keep q = false /\
    ((In q (files_of n) /\ exists c, f q = Some (File c)) \/ (exists p, In p (dirs_of n) /\ within p q /\ f p = Some Dir))).
Proof.
  cbn zeta. unfold delete_state_and_output. fold (files_of n). fold (dirs_of n). cbn zeta.
  set (f1 := fold_left (fun f p => remove_file keep p f) (files_of n) f).
  assert (forall q, f1 q = f q \/ (f1 q = None /\ In q (files_of n) /\ keep q = false /\ exists c, f q = Some (File c))) as S by (intros r; exact (remove_files_spec keep (files_of n) f r)).
  destruct (remove_trees_spec keep (dirs_of n) f1 q) as [H|(H & K & p & I & W & E)]; cbn zeta in *.
  - destruct (S q) as [H2|(H2 & I & K & c & E)]; [left; congruence|]. right. split; [congruence|]. split; auto. left. eauto.
  - right. split; auto. split; auto. right. exists p. split; auto. split; auto. destruct (S p) as [H3|(H3 & _)]; congruence.
Qed.

Lemma remove_files_gone keep ps f q c : In q ps -> f q = Some (File c) -> keep q = false -> fold_left (fun f p => remove_file keep p f) ps f q = None.
Proof.
  revert f. induction ps as [|p ps IH]; intros f I E K; [destruct I|]. cbn [fold_left]. destruct (remove_file_spec keep p f q) as [H|(H & _)].
  - destruct I as [->|I]; [|apply IH; auto; congruence]. exfalso. unfold remove_file in H. rewrite E, K, bytes_eqb_refl in H. congruence.
  - destruct (remove_files_spec keep ps (remove_file keep p f) q) as [H2|(H2 & _)]; cbn zeta in *; congruence.
Qed.
Lemma remove_trees_gone keep ps f q p : In p ps -> f p = Some Dir -> within p q ->
  (forall p1 p2, In p1 ps -> In p2 ps -> within p1 p2 -> p1 = p2) -> keep q = false -> fold_left (fun f p => remove_tree keep p f) ps f q = None.
Proof.
  intros I E W S K. revert f I E. induction ps as [|p0 ps IH]; intros f I E; [destruct I|]. cbn [fold_left].
  assert (forall p1 p2, In p1 ps -> In p2 ps -> within p1 p2 -> p1 = p2) as S' by (intros p1 p2 I1 I2; apply S; right; auto).
  destruct (bytes_eqb_spec p0 p) as [->|N].
  - assert (remove_tree keep p f q = None) as X. { unfold remove_tree. rewrite E. apply within_spec in W. rewrite W, K. reflexivity. }
    destruct (remove_trees_spec keep ps (remove_tree keep p f) q) as [H2|(H2 & _)]; cbn zeta in *; congruence.
  - destruct I as [->|I]; [congruence|]. apply IH; auto. destruct (remove_tree_spec keep p0 f p) as [H|(_ & W' & _)]; [congruence|].
    exfalso. apply N. apply S; auto; [left|right]; auto.
Qed.

(** Nothing generated, nor the control file, is inside a generated directory. *)
Lemma names_len p d f : names p d f -> (List.length d + List.length f <= List.length p)%nat.
Proof. intros H. inversion H; subst; rewrite ?app_length; cbn [List.length]; lia. Qed.
Lemma names_inside a c r d f : c <> "/"%char -> names (a ++ c :: "/"%char :: r) d f -> (List.length a < List.length d)%nat.
Proof.
  intros N H. destruct (names_total r) as (d0 & f0 & H0).
  assert (slashes ["/"%char]) as S1 by (split; [discriminate|intros x [<-|[]]; auto]).
  assert (exists d', names (a ++ c :: "/"%char :: r) d' f0 /\ (List.length a < List.length d')%nat) as (d' & H' & L).
  { inversion H0 as [f1 P|s f1 S P|d1 c1 s f1 N1 S P]; subst.
    - exists (a ++ [c]). split; [|rewrite app_length; cbn [List.length]; lia]. replace (a ++ c :: "/"%char :: f0) with ((a ++ [c]) ++ ["/"%char] ++ f0) by (rewrite <- app_assoc; reflexivity). apply in_dir; auto.
    - exists (a ++ [c]). split; [|rewrite app_length; cbn [List.length]; lia]. replace (a ++ c :: "/"%char :: d0 ++ f0) with ((a ++ [c]) ++ ("/"%char :: d0) ++ f0) by (rewrite <- app_assoc; reflexivity). apply in_dir; auto.
      split; [discriminate|]. intros x [<-|I]; auto. apply S. auto.
    - exists ((a ++ c :: "/"%char :: d1) ++ [c1]). split; [|rewrite !app_length; cbn [List.length]; lia].
      replace (a ++ c :: "/"%char :: (d1 ++ [c1]) ++ s ++ f0) with (((a ++ c :: "/"%char :: d1) ++ [c1]) ++ s ++ f0) by (rewrite <- !app_assoc; cbn [app]; rewrite <- ?app_assoc; reflexivity). apply in_dir; auto. }
  destruct (names_fun _ _ _ _ _ H H') as [-> _]. exact L.
Qed.
Lemma not_inside p q d f f' : names p d f -> (exists a x y, f = a ++ [x; y] /\ y <> "/"%char) -> names q d f' -> ~ (exists r, q = p ++ "/"%char :: r).
Proof.
  intros Hp (a & x & y & -> & Ny) Hq (r & ->). assert (exists b, p = b ++ [y]) as (b & ->).
  { assert (forall u : bytes, u ++ a ++ [x; y] = (u ++ a ++ [x]) ++ [y]) as R by (intros u; rewrite <- !app_assoc; reflexivity).
    inversion Hp as [f0 P|s f0 S P|d0 c s f0 N S P]; subst; [exists (a ++ [x]); apply (R [])|eexists; apply R|]. exists ((d0 ++ [c]) ++ s ++ a ++ [x]). rewrite R. apply app_assoc. }
  pose proof (names_len _ _ _ Hp) as L. rewrite <- app_assoc in Hq. cbn [app] in Hq. apply names_inside in Hq; auto. rewrite !app_length in L. cbn [List.length] in L. lia.
Qed.
Lemma ext_tail e code : In e extensions -> exists a x y, code ++ e = a ++ [x; y] /\ y <> "/"%char.
Proof.
  intros H. assert (exists a x y, e = a ++ [x; y] /\ y <> "/"%char) as (a & x & y & -> & N).
  { repeat (destruct H as [<-|H]; [match goal with |- exists a x y, ?e = _ /\ _ => let r := eval vm_compute in (rev e) in match r with ?y :: ?x :: ?t => exists (rev t), x, y; split; [reflexivity|discriminate] end end|]). destruct H. }
  exists (code ++ a), x, y. rewrite app_assoc. auto.
Qed.

Lemma generated_not_inside ctl d f n p q : competition_files ctl = Ok n -> names ctl d f -> f <> [] ->
  In p (generated n) -> In q (ctl :: generated n) -> within p q -> p = q.
Proof.
  intros E Nm NE Ip Iq [->|W]; auto. exfalso. destruct (files_ok _ _ _ _ E Nm NE) as (ext & HE & NI & _ & F). destruct (F2_In _ _ _ _ F Ip) as (e & Ie & Ne).
  destruct Iq as [<-|Iq].
  - eapply not_inside; [exact Ne| |exact Nm|exact W]. apply ext_tail. auto.
  - destruct (F2_In _ _ _ _ F Iq) as (e' & Ie' & Ne'). eapply not_inside; [exact Ne| |exact Ne'|exact W]. apply ext_tail. auto.
Qed.

Lemma dirs_generated n p : In p (dirs_of n) -> In p (generated n).
Proof. cbn [dirs_of generated In]. tauto. Qed.
Lemma files_generated n p : In p (files_of n) -> In p (generated n).
Proof. cbn [files_of generated In]. tauto. Qed.

Lemma C69_gone_proof ctl d f n keep fs q : competition_files ctl = Ok n -> names ctl d f -> f <> [] -> keep q = false ->
  (In q (files_of n) /\ (exists c, fs q = Some (File c))) \/ (exists p, In p (dirs_of n) /\ within p q /\ fs p = Some Dir) ->
  delete_state_and_output keep n fs q = None.
Proof.
  intros E Nm NE K H. unfold delete_state_and_output. fold (files_of n). fold (dirs_of n). cbn zeta.
  set (f1 := fold_left (fun f p => remove_file keep p f) (files_of n) fs). destruct H as [[I [c Ec]]|(p & I & W & Ep)].
  - assert (f1 q = None) as X by (eapply remove_files_gone; eauto). destruct (remove_trees_spec keep (dirs_of n) f1 q) as [H2|(H2 & _)]; cbn zeta in *; congruence.
  - assert (f1 p = Some Dir) as X. { destruct (remove_files_spec keep (files_of n) fs p) as [H2|(H2 & _ & _ & c & H3)]; cbn zeta in *; unfold f1; congruence. }
    eapply remove_trees_gone; eauto. intros p1 p2 I1 I2 W'. eapply generated_not_inside; eauto; [|right]; apply dirs_generated; auto.
Qed.

Lemma C69_control_kept_proof ctl d f n keep fs : competition_files ctl = Ok n -> names ctl d f -> f <> [] -> delete_state_and_output keep n fs ctl = fs ctl.
Proof.
  intros E Nm NE. pose proof (C69_distinct_proof _ _ _ _ E Nm NE) as ND. inversion ND as [|? ? NI _]; subst.
  destruct (C69_only_proof keep n fs ctl) as [H|(_ & _ & [[I _]|(p & I & W & _)])]; auto; exfalso; apply NI.
  - apply files_generated. auto.
  - rewrite <- (generated_not_inside _ _ _ _ p ctl E Nm NE); auto; [apply dirs_generated; auto|apply dirs_generated; auto|left; auto].
Qed.

(** ** The competition type *)
Lemma lstrip_blank_iff l : lstrip l = [] <-> blank l.
Proof.
  unfold blank. induction l as [|c l IH]; cbn [lstrip]; [split; auto; intros _ c []|]. destruct (is_space c) eqn:S.
  - rewrite IH. split; intros H x; [intros [<-|I]; auto|intros I; apply H; right; auto].
  - split; [discriminate|]. intros H. specialize (H c (or_introl eq_refl)). congruence.
Qed.
Lemma lstrip_app s c r : blank s -> is_space c = false -> lstrip (s ++ c :: r) = c :: r.
Proof.
  intros B S. induction s as [|x s IH]; cbn [app lstrip]; [rewrite S; auto|]. rewrite (B x (or_introl eq_refl)). apply IH. intros y I. apply B. right. auto.
Qed.
Lemma lstrip_cons l c r : lstrip l = c :: r <-> exists s, l = s ++ c :: r /\ blank s /\ is_space c = false.
Proof.
  split; [|intros (s & -> & B & S); apply lstrip_app; auto]. induction l as [|x l IH]; cbn [lstrip]; [discriminate|]. destruct (is_space x) eqn:S.
  - intros H. destruct (IH H) as (s & -> & B & S'). exists (x :: s). split; auto. split; auto. intros y [<-|I]; auto.
  - intros H. injection H as -> ->. exists []. split; auto. split; auto. intros y [].
Qed.
Definition skipped (l : bytes) : Prop := blank l \/ comment l.
Lemma skipped_dec l : skipped l <-> match lstrip l with [] => True | c :: _ => c = "#"%char end.
Proof.
  unfold skipped, comment. destruct (lstrip l) as [|c r] eqn:E.
  - apply lstrip_blank_iff in E. tauto.
  - split.
    + intros [B|(s & r' & -> & B)]; [apply lstrip_blank_iff in B; congruence|]. rewrite lstrip_app in E by auto. congruence.
    + intros ->. right. apply lstrip_cons in E. destruct E as (s & -> & B & _). eauto.
Qed.
Lemma first_code_spec ls line : first_code_line ls = Some line <-> exists before after, ls = before ++ line :: after /\ (forall l, In l before -> skipped l) /\ ~ skipped line.
Proof.
  induction ls as [|l ls IH]; cbn [first_code_line].
  - split; [discriminate|]. intros (b & a & E & _). destruct b; discriminate.
  - assert (first_code_line ls = Some line /\ skipped l \/ l = line /\ ~ skipped l <-> exists before after, l :: ls = before ++ line :: after /\ (forall l, In l before -> skipped l) /\ ~ skipped line) as K.
    { split.
      - intros [[H S]|[<- S]]; [|exists [], ls; split; auto; split; auto; intros x []]. apply IH in H. destruct H as (b & a & -> & B & N). exists (l :: b), a. split; auto. split; auto. intros x [<-|I]; auto.
      - intros (b & a & E & B & N). destruct b as [|x b]; cbn in E; inversion E; subst; [right; auto|]. left. split; [|apply B; left; auto]. apply IH. exists b, a. split; auto. split; auto. intros y I. apply B. right. auto. }
    rewrite <- K. pose proof (skipped_dec l) as D. destruct (lstrip l) as [|c r].
    + split; [left; split; auto; tauto|]. intros [[H _]|[_ N]]; auto. exfalso. tauto.
    + destruct (ceqb_spec c "#"%char) as [Ec|Nc].
      * split; [left; split; auto; tauto|]. intros [[H _]|[_ N]]; auto. exfalso. tauto.
      * split; [intros H; injection H as ->; right; split; tauto|]. intros [[_ S]|[-> _]]; auto. exfalso. tauto.
Qed.

Lemma split_lf_parts s : split_on char_lf s <> [] /\ join [char_lf] (split_on char_lf s) = s /\ forall l, In l (split_on char_lf s) -> ~ In char_lf l.
Proof.
  induction s as [|c s (NE & J & N)]; cbn [split_on]; [split; [discriminate|]; split; auto; intros l [<-|[]]; auto|].
  destruct (ceqb_spec c char_lf) as [->|Nc].
  - split; [discriminate|]. split; [|intros l [<-|I]; auto]. destruct (split_on char_lf s) as [|h t] eqn:E; [congruence|].
    cbn [join]. cbn [join] in J. cbn [app]. f_equal. exact J.
  - destruct (split_on char_lf s) as [|h t]; [congruence|]. split; [discriminate|]. split.
    + destruct t; cbn [join app] in *; rewrite <- J; reflexivity.
    + intros l [<-|I]; [|apply N; right; auto]. intros [X|X]; [congruence|]. apply (N h); [left|]; auto.
Qed.

Lemma first_line_iff source line : first_code_line (split_on char_lf source) = Some line <-> first_line source line.
Proof.
  rewrite first_code_spec. destruct (split_lf_parts source) as (NE & J & N). unfold first_line, skipped. split.
  - intros (b & a & E & B & S). exists b, a. rewrite <- E. split; [symmetry; exact J|]. split; auto. tauto.
  - intros (b & a & E & L & B & S1 & S2). exists b, a. split; [|split; auto; tauto]. rewrite E. apply split_on_join; [destruct b; discriminate|].
    apply Forall_forall. intros x I. apply L. exact I.
Qed.

Lemma skip_prefix_spec p s r : skip_prefix p s = Some r <-> s = p ++ r.
Proof.
  revert s. induction p as [|a p IH]; intros s; cbn [skip_prefix app]; [split; congruence|]. destruct s as [|b s]; [split; discriminate|].
  destruct (ceqb_spec a b) as [<-|N]; [rewrite IH; split; congruence|]. split; [discriminate|congruence].
Qed.
Lemma span_word_spec s a b : span_word s = (a, b) <-> s = a ++ b /\ (forall c, In c a -> word_char c = true) /\ (forall c r, b = c :: r -> word_char c = false).
Proof.
  revert a b. induction s as [|c s IH]; intros a b; cbn [span_word].
  - split; [intros H; injection H as <- <-; split; auto; split; [intros c []|discriminate]|]. intros (E & _). destruct a, b; try discriminate. reflexivity.
  - destruct (word_char c) eqn:W.
    + destruct (span_word s) as [a0 b0]. split.
      * intros H. injection H as <- <-. destruct (proj1 (IH a0 b0) eq_refl) as (-> & A & B). split; auto. split; auto. intros x [<-|I]; auto.
      * intros (E & A & B). destruct a as [|x a]; cbn in E.
        -- subst b. specialize (B c s eq_refl). congruence.
        -- injection E as <- ->. assert ((a0, b0) = (a, b)) as X by (apply IH; split; auto; split; auto; intros y I; apply A; right; auto). injection X as -> ->. reflexivity.
    + split.
      * intros H. injection H as <- <-. split; auto. split; [intros x []|]. intros x r H. congruence.
      * intros (E & A & B). destruct a as [|x a]; cbn in E; [rewrite <- E; reflexivity|]. injection E as <- ->. specialize (A c (or_introl eq_refl)). congruence.
Qed.
Lemma word_char_spec c : word_char c = true <-> is_letter c = true \/ is_digit c = true \/ c = "_"%char.
Proof. unfold word_char. rewrite !Bool.orb_true_iff. destruct (ceqb_spec c "_"%char); intuition discriminate. Qed.
Lemma quote_spec q : is_quote q = true <-> q = "'"%char \/ q = """"%char.
Proof. unfold is_quote. rewrite Bool.orb_true_iff. destruct (ceqb_spec q "'"%char), (ceqb_spec q """"%char); intuition discriminate. Qed.
Lemma quote_facts q : q = "'"%char \/ q = """"%char -> is_space q = false /\ word_char q = false.
Proof. intros [->| ->]; split; reflexivity. Qed.

Lemma match_spec line q t q' : match_type line = Some (q, t, q') <->
  exists s1 s2, blank s1 /\ blank s2 /\ (q = "'"%char \/ q = """"%char) /\ (q' = "'"%char \/ q' = """"%char) /\
    line = str "competition_type" ++ s1 ++ "="%char :: s2 ++ [q] ++ t ++ [q'] /\ t <> [] /\ forall c, In c t -> word_char c = true.
Proof.
  unfold match_type. split.
  - destruct (skip_prefix _ line) as [r|] eqn:E1; [|discriminate]. apply skip_prefix_spec in E1. subst line.
    destruct (lstrip r) as [|c r1] eqn:E2; [discriminate|]. intros H.
    assert (c = "="%char) as -> by (destruct c as [[] [] [] [] [] [] [] []]; try discriminate; reflexivity).
    apply lstrip_cons in E2. destruct E2 as (s1 & -> & B1 & _). destruct (lstrip r1) as [|q0 r2] eqn:E3; [discriminate|].
    apply lstrip_cons in E3. destruct E3 as (s2 & -> & B2 & _). destruct (is_quote q0) eqn:Q; [|discriminate].
    destruct (span_word r2) as [w rest] eqn:E4. apply span_word_spec in E4. destruct E4 as (-> & W & _). destruct w as [|w0 w]; [discriminate|].
    destruct rest as [|q1 [|? ?]]; [discriminate| |discriminate]. destruct (is_quote q1) eqn:Q1; [|discriminate]. injection H as <- <- <-.
    exists s1, s2. repeat (split; [first [assumption|apply quote_spec; assumption|reflexivity|discriminate]|]). exact W.
  - intros (s1 & s2 & B1 & B2 & Q & Q' & -> & NT & W).
    match goal with |- context [skip_prefix ?p (?p ++ ?x)] => assert (skip_prefix p (p ++ x) = Some x) as -> by (apply skip_prefix_spec; reflexivity) end.
    rewrite lstrip_app by auto. cbn iota beta. destruct (quote_facts _ Q) as [Sq _]. destruct (quote_facts _ Q') as [_ Wq']. cbn [app]. rewrite lstrip_app by auto.
    assert (is_quote q = true) as -> by (apply quote_spec; auto).
    assert (span_word (t ++ [q']) = (t, [q'])) as ->. { apply span_word_spec. split; auto. split; auto. intros c r H. injection H as <- _. exact Wq'. }
    destruct t as [|t0 t]; [congruence|]. assert (is_quote q' = true) as -> by (apply quote_spec; auto). reflexivity.
Qed.

Lemma C69_type_proof source t : parse_competition_type source = Ok t <-> exists line, first_line source line /\ declares line t.
Proof.
  unfold parse_competition_type. split.
  - destruct (first_code_line _) as [line|] eqn:E; [|discriminate]. apply first_line_iff in E. destruct (match_type line) as [[[q t'] q']|] eqn:M; [|discriminate].
    apply match_spec in M. destruct M as (s1 & s2 & B1 & B2 & Q & Q' & -> & NT & W). destruct (ceqb_spec q q') as [<-|]; [|discriminate]. intros H. injection H as ->.
    eexists. split; [exact E|]. exists s1, s2, q. repeat (split; [assumption || reflexivity|]). intros c I. apply word_char_spec. auto.
  - intros (line & F & s1 & s2 & q & B1 & B2 & Q & E & NT & W). apply first_line_iff in F. rewrite F.
    assert (match_type line = Some (q, t, q)) as ->. { apply match_spec. exists s1, s2. repeat (split; [assumption || reflexivity|]). intros c I. apply word_char_spec. auto. }
    destruct (ceqb_spec q q); congruence.
Qed.
Lemma C69_type_err_proof source e : parse_competition_type source = Err e -> e = ValueError.
Proof.
  unfold parse_competition_type. destruct (first_code_line _); [|congruence]. destruct (match_type _) as [[[q t] q']|]; [|congruence]. destruct (ceqb q q'); congruence.
Qed.

Lemma get_class_spec t c : get_competition_class t = Ok c <-> t = class_name c.
Proof.
  unfold get_competition_class. destruct (bytes_eqb_spec t (str "playoff")) as [->|N1]; [destruct c; split; intros; try discriminate; reflexivity|].
  destruct (bytes_eqb_spec t (str "allplayall")) as [->|N2]; [destruct c; split; intros; try discriminate; reflexivity|].
  destruct (bytes_eqb_spec t (str "ce_tuner")) as [->|N3]; [destruct c; split; intros; try discriminate; reflexivity|].
  destruct (bytes_eqb_spec t (str "mc_tuner")) as [->|N4]; [destruct c; split; intros; try discriminate; reflexivity|].
  split; [discriminate|]. destruct c; cbn [class_name]; contradiction.
Qed.
Lemma C69_class_proof source :
  (forall c, class_of_control_file source = Ok c <-> exists line, first_line source line /\ declares line (class_name c)) /\
  (forall e, class_of_control_file source = Err e -> e = RingmasterError).
Proof.
  unfold class_of_control_file. split.
  - intros c. split.
    + destruct (parse_competition_type source) as [t|] eqn:E; [|discriminate]. destruct (get_competition_class t) as [c'|] eqn:G; [|discriminate]. intros H. injection H as ->.
      apply get_class_spec in G. subst t. apply C69_type_proof. exact E.
    + intros H. apply C69_type_proof in H. rewrite H. assert (get_competition_class (class_name c) = Ok c) as -> by (apply get_class_spec; reflexivity). reflexivity.
  - intros e. destruct (parse_competition_type source); [destruct (get_competition_class _)|]; congruence.
Qed.
