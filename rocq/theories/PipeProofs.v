(** Proofs about reading responses from any program. *)
From Verif Require Import Base Bytes PyStr GtpModel PipeModel PipeSpec.
Open Scope Z_scope.

(** ** Cleaning *)
Lemma ignored_spec c : is_response_control c = true <-> ignored c.
Proof. unfold is_response_control, ignored. pose proof (ord_range c) as R. lia. Qed.
Lemma cleaned_iff s : forall t, cleaned s t <-> without_controls s = t.
Proof.
  induction s as [|c s IH]; intros t; unfold without_controls in *; cbn [filter].
  - split; [intros H; inversion H; reflexivity|intros <-; constructor].
  - destruct (is_response_control c) eqn:E; cbn [negb].
    + apply ignored_spec in E. rewrite <- IH. split; [intros H; inversion H; subst; [assumption|contradiction]|intros H; constructor; assumption].
    + assert (~ ignored c) as N by (rewrite <- ignored_spec; congruence). split.
      * intros H. inversion H; subst; [contradiction|]. f_equal. apply IH. assumption.
      * intros <-. constructor; [exact N|]. apply IH. reflexivity.
Qed.
Lemma cleaned_lines ls : forall ts, Forall2 cleaned ls ts <-> map without_controls ls = ts.
Proof.
  induction ls as [|l ls IH]; intros ts; cbn [map].
  - split; [intros H; inversion H; reflexivity|intros <-; constructor].
  - split; [intros H; inversion H as [|? ? ? ? A B]; subst; f_equal; [apply cleaned_iff; exact A|apply IH; exact B]|].
    intros <-. constructor; [apply cleaned_iff; reflexivity|]. apply IH. reflexivity.
Qed.
Lemma without_controls_app a b : without_controls (a ++ b) = without_controls a ++ without_controls b.
Proof. apply filter_app. Qed.
Lemma lf_kept : without_controls [char_lf] = [char_lf]. Proof. reflexivity. Qed.

Lemma lstrip_nil s : lstrip s = [] <-> forallb is_space s = true.
Proof.
  induction s as [|c s IH]; cbn [lstrip forallb]; [tauto|]. destruct (is_space c); cbn [andb]; [exact IH|split; discriminate].
Qed.
Lemma lstrip_split s : exists u, s = u ++ lstrip s /\ forallb is_space u = true.
Proof.
  induction s as [|c s (u & E & F)]; [exists []; split; reflexivity|]. cbn [lstrip]. destruct (is_space c) eqn:C.
  - exists (c :: u). cbn [app forallb]. rewrite C, F. split; [congruence|reflexivity].
  - exists []. split; reflexivity.
Qed.
Lemma forallb_rev {A} (f : A -> bool) l : forallb f (rev l) = forallb f l.
Proof. induction l as [|a l IH]; cbn [rev forallb]; [reflexivity|]. rewrite forallb_app, IH. cbn [forallb]. rewrite andb_true_r. apply andb_comm. Qed.
Lemma strip_nil s : strip s = [] <-> forallb is_space s = true.
Proof.
  unfold strip. split.
  - intros H. apply (f_equal (@rev ascii)) in H. rewrite rev_involutive in H. cbn [rev] in H. apply lstrip_nil in H. rewrite forallb_rev in H.
    destruct (lstrip_split s) as (u & E & F). rewrite E, forallb_app, F, H. reflexivity.
  - intros H. rewrite (proj2 (lstrip_nil s) H). reflexivity.
Qed.

Lemma blank_spec l : blank l <-> bytes_eqb (strip (without_controls l)) [] = true.
Proof.
  assert (bytes_eqb (strip (without_controls l)) [] = true <-> strip (without_controls l) = []) as ->.
  { destruct (bytes_eqb_spec (strip (without_controls l)) []) as [E|E]; split; congruence. }
  rewrite strip_nil. unfold blank, without_controls. induction l as [|c l IH]; cbn [filter forallb]; [split; [reflexivity|constructor]|].
  rewrite Forall_cons_iff, IH. destruct (is_response_control c) eqn:E; cbn [negb forallb].
  - apply ignored_spec in E. tauto.
  - assert (~ ignored c) as N by (rewrite <- ignored_spec; congruence).
    assert (is_space c = true <-> (c = char_sp \/ c = char_tab \/ c = char_lf)) as X.
    { assert (forall d, c = d <-> ord c = ord d) as EQ.
      { intros d. split; [congruence|]. intros H. rewrite <- (chr_ord c), <- (chr_ord d), H. reflexivity. }
      rewrite !EQ. change (ord char_sp) with 32. change (ord char_tab) with 9. change (ord char_lf) with 10.
      unfold ignored in N. unfold is_space. pose proof (ord_range c). lia. }
    rewrite andb_true_iff, X. tauto.
Qed.
Lemma blank_false l : ~ blank l -> bytes_eqb (strip (without_controls l)) [] = false.
Proof. intros N. destruct (bytes_eqb _ _) eqn:E; [|reflexivity]. exfalso. apply N, blank_spec, E. Qed.
Lemma blank_dec l : blank l \/ ~ blank l.
Proof. rewrite blank_spec. destruct (bytes_eqb _ _); [left; reflexivity|right; discriminate]. Qed.
Lemma empty_spec l : empty l <-> bytes_eqb (without_controls l) [char_lf] = true.
Proof. unfold empty. rewrite cleaned_iff. destruct (bytes_eqb_spec (without_controls l) [char_lf]); split; congruence. Qed.
Lemma empty_false l : ~ empty l -> bytes_eqb (without_controls l) [char_lf] = false.
Proof. intros N. destruct (bytes_eqb _ _) eqn:E; [|reflexivity]. exfalso. apply N, empty_spec, E. Qed.
Lemma empty_dec l : empty l \/ ~ empty l.
Proof. rewrite empty_spec. destruct (bytes_eqb _ _); [left; reflexivity|right; discriminate]. Qed.

(** ** Lines *)
Lemma ends_app t : ends_with_lf (t ++ [char_lf]) = true.
Proof. unfold ends_with_lf. rewrite rev_app_distr. reflexivity. Qed.
Lemma ends_not t : no_newline t -> ends_with_lf t = false.
Proof.
  intros N. unfold ends_with_lf. destruct (rev t) as [|c r] eqn:E; [reflexivity|]. destruct (ceqb_spec c char_lf) as [->|]; [|reflexivity].
  exfalso. apply N. apply in_rev. rewrite E. left. reflexivity.
Qed.
Lemma clean_line_ends l : line l -> ends_with_lf (without_controls l) = true.
Proof. intros (t & -> & _). rewrite without_controls_app, lf_kept. apply ends_app. Qed.
Lemma clean_tail_ends t : no_newline t -> ends_with_lf (without_controls t) = false.
Proof. intros N. apply ends_not. intros I. apply N. apply filter_In in I. tauto. Qed.

Lemma read_line_line l rest : line l -> readline (l ++ rest) = (l, rest).
Proof.
  intros (t & -> & N). induction t as [|c t IH]; cbn [app readline]; [reflexivity|].
  destruct (ceqb_spec c char_lf) as [->|]; [exfalso; apply N; left; reflexivity|].
  rewrite IH by (intros I; apply N; right; exact I). reflexivity.
Qed.
Lemma read_line_tail t : no_newline t -> readline t = (t, []).
Proof.
  induction t as [|c t IH]; intros N; cbn [readline]; [reflexivity|].
  destruct (ceqb_spec c char_lf) as [->|]; [exfalso; apply N; left; reflexivity|].
  rewrite IH by (intros I; apply N; right; exact I). reflexivity.
Qed.
Lemma line_nonempty l : line l -> (0 < List.length l)%nat.
Proof. intros (t & -> & _). rewrite app_length. cbn. lia. Qed.

Lemma lines_of (s : bytes) : exists (ls : list bytes) (tail : bytes), s = List.concat ls ++ tail /\ Forall line ls /\ no_newline tail.
Proof.
  remember (List.length s) as n eqn:E. revert s E. induction n as [n IH] using (well_founded_induction lt_wf). intros s ->.
  destruct (in_dec ascii_dec char_lf s) as [I|N].
  - assert (exists l r, s = l ++ r /\ line l) as (l & r & -> & L).
    { clear IH. induction s as [|c s IH]; [destruct I|]. destruct (ascii_dec c char_lf) as [->|NE].
      - exists [char_lf], s. split; [reflexivity|]. exists []. split; [reflexivity|intros []].
      - destruct I as [I|I]; [congruence|]. destruct (IH I) as (l & r & -> & (t & -> & N)). exists ((c :: t) ++ [char_lf]), r.
        split; [reflexivity|]. exists (c :: t). split; [reflexivity|]. intros [X|X]; [congruence|contradiction]. }
    pose proof (line_nonempty l L) as LP.
    destruct (IH (List.length r) ltac:(rewrite app_length; lia) r eq_refl) as (ls & tail & -> & F & N).
    exists (l :: ls), tail. cbn [List.concat]. rewrite app_assoc. split; [reflexivity|]. split; [constructor; assumption|exact N].
  - exists [], s. split; [reflexivity|]. split; [constructor|exact N].
Qed.

(** ** The loop *)
Lemma get_line e l rest : line l -> get_response_line e (l ++ rest) = inl (l, rest).
Proof. intros L. unfold get_response_line. rewrite (read_line_line l rest L). destruct L as (t & -> & _). rewrite ends_app. reflexivity. Qed.
Lemma get_tail e t : no_newline t -> get_response_line e t =
  match e with Eof => inl (t, []) | Silence => inr Waits | Broken x => inr (Transport x) end.
Proof. intros N. unfold get_response_line. rewrite (read_line_tail t N), (ends_not t N). destruct e; reflexivity. Qed.

Lemma loop_blanks e bs : forall f acc s, Forall line bs -> Forall blank bs ->
  read_lines (List.length bs + f) e false [] acc (List.concat bs ++ s) = read_lines f e false [] acc s.
Proof.
  induction bs as [|b bs IH]; intros f acc s L B; [reflexivity|]. inversion L as [|? ? L1 L2]; inversion B as [|? ? B1 B2]; subst.
  cbn [List.length Nat.add List.concat read_lines]. rewrite <- app_assoc, (get_line e b _ L1). cbn [app negb andb].
  rewrite (proj1 (blank_spec b) B1), (clean_line_ends b L1). apply IH; assumption.
Qed.
Lemma loop_more e ls : forall f acc s, Forall line ls -> Forall (fun l => ~ empty l) ls ->
  read_lines (List.length ls + f) e true [] acc (List.concat ls ++ s) = read_lines f e true [] (acc ++ map without_controls ls) s.
Proof.
  induction ls as [|l ls IH]; intros f acc s L N; cbn [map]; [rewrite app_nil_r; reflexivity|]. inversion L as [|? ? L1 L2]; inversion N as [|? ? N1 N2]; subst.
  cbn [List.length Nat.add List.concat read_lines]. rewrite <- app_assoc, (get_line e l _ L1). cbn [app negb andb].
  rewrite (empty_false l N1), (clean_line_ends l L1). rewrite IH by assumption. rewrite <- app_assoc. reflexivity.
Qed.
Lemma loop_begun e ls f s : begun ls ->
  read_lines (List.length ls + f) e false [] [] (List.concat ls ++ s) = read_lines f e true [] (map without_controls ls) s.
Proof.
  intros (L & N & H). destruct ls as [|l ls]; [contradiction|]. inversion L as [|? ? L1 L2]; inversion N as [|? ? N1 N2]; subst.
  cbn [List.length Nat.add List.concat read_lines]. rewrite <- app_assoc, (get_line e l _ L1). cbn [app negb andb].
  rewrite (blank_false l H), (empty_false l N1), (clean_line_ends l L1). rewrite loop_more by assumption. reflexivity.
Qed.

Definition newlines (s : bytes) : nat := count_occ ascii_dec s char_lf.
Lemma newlines_app a b : newlines (a ++ b) = (newlines a + newlines b)%nat.
Proof. apply count_occ_app. Qed.
Lemma newlines_none t : no_newline t -> newlines t = O.
Proof. intros N. apply count_occ_not_In. exact N. Qed.
Lemma newlines_line l : line l -> newlines l = 1%nat.
Proof. intros (t & -> & N). rewrite newlines_app, (newlines_none t N). reflexivity. Qed.
Lemma newlines_lines ls : Forall line ls -> newlines (List.concat ls) = List.length ls.
Proof. induction 1 as [|l ls L F IH]; [reflexivity|]. cbn [List.concat List.length]. rewrite newlines_app, IH, (newlines_line l L). reflexivity. Qed.
Lemma newlines_le s : (newlines s <= List.length s)%nat.
Proof. unfold newlines. induction s as [|c s IH]; cbn [count_occ List.length]; [lia|]. destruct (ascii_dec c char_lf); lia. Qed.

Definition finish (x : (list bytes * bytes) + failure) : channel * outcome :=
  match x with
  | inr x => (mkChan false [], Failed x)
  | inl (lines, rest) => (mkChan false rest, interpret lines)
  end.

(** *** What the lines mean *)
Lemma lstrip_blank_lead lead x : blanks lead -> (forall d u, x = d :: u -> d <> char_sp /\ d <> char_tab) -> lstrip_blank (lead ++ x) = x.
Proof.
  intros B N. induction B as [|c lead B F IH]; cbn [app].
  - destruct x as [|d u]; [reflexivity|]. cbn [lstrip_blank]. destruct (N d u eq_refl) as [A C].
    assert (is_blank d = false) as ->; [|reflexivity]. unfold is_blank.
    assert (ord d <> 9) by (intros X; apply C; apply ord_inj; exact X). assert (ord d <> 32) by (intros X; apply A; apply ord_inj; exact X). lia.
  - cbn [lstrip_blank]. assert (is_blank c = true) as -> by (destruct B as [-> | ->]; reflexivity). exact IH.
Qed.
Lemma lstrip_blank_split s : exists lead, s = lead ++ lstrip_blank s /\ blanks lead /\ (forall d u, lstrip_blank s = d :: u -> d <> char_sp /\ d <> char_tab).
Proof.
  induction s as [|c s (lead & E & B & N)]; [exists []; split; [reflexivity|split; [constructor|discriminate]]|].
  cbn [lstrip_blank]. destruct (is_blank c) eqn:C.
  - exists (c :: lead). split; [cbn [app]; congruence|]. split; [constructor; [|exact B]|exact N].
    unfold is_blank in C. apply orb_true_iff in C. destruct C as [C|C]; [right|left]; apply ord_inj; apply Z.eqb_eq in C; exact C.
  - exists []. split; [reflexivity|]. split; [constructor|]. intros d u E1. injection E1 as <- <-.
    split; intros ->; discriminate.
Qed.
Lemma lstrip_blank_concat r more : In char_lf r \/ more = [] -> lstrip_blank (r ++ List.concat more) = lstrip_blank r ++ List.concat more.
Proof.
  intros [I| ->]; [|cbn [List.concat]; rewrite !app_nil_r; reflexivity].
  induction r as [|c r IH]; [destruct I|]. cbn [app lstrip_blank]. destruct (is_blank c) eqn:C; [|reflexivity].
  apply IH. destruct I as [->|I]; [discriminate C|exact I].
Qed.
Lemma rstrip_white text trail : white trail -> ends_in_ink text -> rstrip (text ++ trail) = text.
Proof.
  intros W K. unfold rstrip. rewrite rev_app_distr.
  assert (forall a b, Forall (fun c => is_space c = true) a -> lstrip (a ++ b) = lstrip b) as X.
  { intros a b. induction 1 as [|c a C F IH]; [reflexivity|]. cbn [app lstrip]. rewrite C. exact IH. }
  rewrite X by (apply Forall_rev; exact W). destruct (rev text) as [|d r] eqn:E.
  - apply (f_equal (@rev ascii)) in E. rewrite rev_involutive in E. subst text. reflexivity.
  - assert (text = rev r ++ [d]) as ET by (rewrite <- (rev_involutive text), E; reflexivity).
    cbn [lstrip]. rewrite (K _ _ ET). cbn [rev]. symmetry. exact ET.
Qed.
Lemma rstrip_split s : exists trail, s = rstrip s ++ trail /\ white trail /\ ends_in_ink (rstrip s).
Proof.
  unfold rstrip. destruct (lstrip_split (rev s)) as (u & E & F). exists (rev u). split; [|split].
  - rewrite <- rev_app_distr, <- E, rev_involutive. reflexivity.
  - apply Forall_rev. apply Forall_forall. apply forallb_forall. exact F.
  - intros r d EQ. apply (f_equal (@rev ascii)) in EQ. rewrite rev_involutive, rev_app_distr in EQ. cbn [rev app] in EQ.
    assert (forall x c v, lstrip x = c :: v -> is_space c = false) as X.
    { induction x as [|c x IHx]; [discriminate|]. intros c' v. cbn [lstrip]. destruct (is_space c) eqn:C; [apply IHx|]. intros H. injection H as <- <-. exact C. }
    exact (X _ _ _ EQ).
Qed.
Lemma untabbed_spec s : forall t, untabbed s t <-> tabs_to_spaces s = t.
Proof.
  unfold untabbed, tabs_to_spaces. induction s as [|c s IH]; intros t; cbn [map].
  - split; [intros H; inversion H; reflexivity|intros <-; constructor].
  - split; [intros H; inversion H as [|? ? ? ? A B]; subst; f_equal; apply IH; exact B|]. intros <-. constructor; [reflexivity|]. apply IH. reflexivity.
Qed.

Definition terminated_first (ts : list bytes) : Prop := match ts with [] => False | t :: more => In char_lf t \/ more = [] end.
Lemma means_interpret ts o : means ts o -> terminated_first ts -> interpret ts = o.
Proof.
  intros M. destruct M as [c r more lead text trail shown C E B N W K U|c r more first trail C1 C2 E W K]; intros T.
  - cbn [interpret]. assert (ceqb c "?" || ceqb c "=" = true) as -> by (destruct C as [-> | ->]; reflexivity).
    cbn [List.concat]. assert (In char_lf r \/ more = []) as T' by (destruct T as [[X|X]|X]; auto; destruct C as [-> | ->]; discriminate X).
    rewrite <- (lstrip_blank_concat r more T'), E, (lstrip_blank_lead lead (text ++ trail) B N), (rstrip_white text trail W K).
    rewrite (proj1 (untabbed_spec text shown) U). reflexivity.
  - cbn [interpret]. destruct (ceqb_spec c "?"%char) as [X|_]; [contradiction|]. destruct (ceqb_spec c "="%char) as [X|_]; [contradiction|]. cbn [orb].
    rewrite E, (rstrip_white first trail W K). reflexivity.
Qed.
Lemma means_total t more : t <> [] -> (In char_lf t \/ more = []) -> exists o, means (t :: more) o.
Proof.
  intros NE T. destruct t as [|c r]; [congruence|].
  assert (forall c', c = c' -> c' = "="%char \/ c' = "?"%char -> exists o, means ((c :: r) :: more) o) as GO.
  { intros c' <- C. destruct (lstrip_blank_split (r ++ List.concat more)) as (lead & E & B & N).
    destruct (rstrip_split (lstrip_blank (r ++ List.concat more))) as (trail & E2 & W & K).
    eexists. apply (me_response c r more lead (rstrip (lstrip_blank (r ++ List.concat more))) trail (tabs_to_spaces (rstrip (lstrip_blank (r ++ List.concat more)))) C); try assumption.
    - rewrite <- E2. exact E.
    - rewrite <- E2. exact N.
    - apply untabbed_spec. reflexivity. }
  destruct (ascii_dec c "="%char) as [E|E1]; [exact (GO _ E (or_introl eq_refl))|].
  destruct (ascii_dec c "?"%char) as [E|E2]; [exact (GO _ E (or_intror eq_refl))|].
  destruct (rstrip_split (c :: r)) as (trail & E & W & K). eexists. exact (me_neither c r more _ trail E1 E2 E W K).
Qed.

Lemma begun_first ls tail : begun ls -> terminated_first (map without_controls ls ++ tail).
Proof.
  intros (L & _ & H). destruct ls as [|l ls]; [contradiction|]. cbn [map app terminated_first]. left. inversion L as [|? ? (t & -> & _) L2]; subst.
  rewrite without_controls_app, lf_kept. apply in_or_app. right. left. reflexivity.
Qed.

(** *** The relation holds of what is read *)
Lemma answers_read e s o rest f : answers e s o rest -> (newlines s < f)%nat -> finish (read_lines f e false [] [] s) = (mkChan false rest, o).
Proof.
  intros A F. destruct A as [bs ls last rest ts o Lb Bb BG LL EL C M|bs ls tail ts o -> Lb Bb NT HB C M|s -> B|bs ls tail f0 Lb Bb NT HB X].
  - rewrite !newlines_app, (newlines_lines bs Lb), (newlines_lines ls (proj1 BG)), (newlines_line last LL) in F.
    replace f with (List.length bs + (List.length ls + S (f - List.length bs - List.length ls - 1)))%nat by lia.
    rewrite loop_blanks, loop_begun by assumption. cbn [read_lines]. rewrite (get_line e last rest LL). cbn [app negb andb].
    rewrite (proj1 (empty_spec last) EL). cbn [finish]. f_equal. apply cleaned_lines in C. rewrite C. apply means_interpret; [exact M|].
    rewrite <- C. pose proof (begun_first ls [] BG) as T. rewrite app_nil_r in T. exact T.
  - apply cleaned_lines in C. rewrite map_app in C. cbn [map] in C.
    destruct HB as [BG|[-> HT]].
    + rewrite !newlines_app, (newlines_lines bs Lb), (newlines_lines ls (proj1 BG)) in F.
      replace f with (List.length bs + (List.length ls + S (f - List.length bs - List.length ls - 1)))%nat by lia.
      rewrite loop_blanks, loop_begun by assumption. cbn [read_lines]. rewrite (get_tail Eof tail NT). cbn [app negb andb].
      assert (~ empty tail) as NE by (intros X; apply cleaned_iff in X; pose proof (clean_tail_ends tail NT) as Y; rewrite X in Y; discriminate).
      rewrite (empty_false tail NE), (clean_tail_ends tail NT). cbn [finish]. f_equal. rewrite C. apply means_interpret; [exact M|].
      rewrite <- C. apply begun_first. exact BG.
    + cbn [List.concat app] in *. rewrite !newlines_app, (newlines_lines bs Lb) in F.
      replace f with (List.length bs + S (f - List.length bs - 1))%nat by lia. rewrite loop_blanks by assumption.
      cbn [read_lines]. rewrite (get_tail Eof tail NT). cbn [app negb andb]. rewrite (blank_false tail HT).
      assert (~ empty tail) as NE by (intros X; apply cleaned_iff in X; pose proof (clean_tail_ends tail NT) as Y; rewrite X in Y; discriminate).
      rewrite (empty_false tail NE), (clean_tail_ends tail NT). cbn [finish app]. f_equal. cbn [map app] in C. rewrite C. apply means_interpret; [exact M|].
      rewrite <- C. right. reflexivity.
  - destruct (lines_of s) as (bs & tail & -> & L & NT). apply Forall_app in B. destruct B as [B1 B2].
    assert (Forall blank bs) as Bb.
    { clear - B1. induction bs as [|b bs IH]; [constructor|]. cbn [List.concat] in B1. apply Forall_app in B1. constructor; [tauto|apply IH; tauto]. }
    rewrite !newlines_app, (newlines_lines bs L) in F. replace f with (List.length bs + S (f - List.length bs - 1))%nat by lia.
    rewrite loop_blanks by assumption. cbn [read_lines]. rewrite (get_tail Eof tail NT). cbn [app negb andb].
    rewrite (proj1 (blank_spec tail) B2), (clean_tail_ends tail NT). reflexivity.
  - assert (finish (match e with Eof => inl ([], []) | Silence => inr Waits | Broken x => inr (Transport x) end) = (mkChan false [], Failed f0)) as R
      by (destruct X as [[-> ->]|(t & -> & ->)]; reflexivity).
    assert (e <> Eof) as NE by (destruct X as [[-> _]|(t & -> & _)]; discriminate).
    destruct HB as [BG| ->].
    + rewrite !newlines_app, (newlines_lines bs Lb), (newlines_lines ls (proj1 BG)) in F.
      replace f with (List.length bs + (List.length ls + S (f - List.length bs - List.length ls - 1)))%nat by lia.
      rewrite loop_blanks, loop_begun by assumption. cbn [read_lines]. rewrite (get_tail e tail NT). destruct e; [congruence|exact R|exact R].
    + cbn [List.concat app] in *. rewrite !newlines_app, (newlines_lines bs Lb) in F.
      replace f with (List.length bs + S (f - List.length bs - 1))%nat by lia. rewrite loop_blanks by assumption.
      cbn [read_lines]. rewrite (get_tail e tail NT). destruct e; [congruence|exact R|exact R].
Qed.

(** *** Every stream is one of the cases *)
Lemma split_while {A} (P : A -> Prop) (D : forall a, P a \/ ~ P a) l :
  exists u v, l = u ++ v /\ Forall P u /\ match v with [] => True | a :: _ => ~ P a end.
Proof.
  induction l as [|a l (u & v & -> & F & H)]; [exists [], []; repeat split; constructor|].
  destruct (D a) as [Pa|N]; [exists (a :: u), v; repeat split; [constructor; assumption|exact H]|].
  exists [], (a :: u ++ v). repeat split; [constructor|exact N].
Qed.
Lemma nonblank_clean l : ~ blank l -> without_controls l <> [].
Proof. intros N E. apply N. apply blank_spec. rewrite E. reflexivity. Qed.
Lemma answers_total e s : exists o rest, answers e s o rest.
Proof.
  destruct (lines_of s) as (all & tail & -> & L & NT).
  destruct (split_while blank blank_dec all) as (bs & more & -> & Bb & HM). apply Forall_app in L. destruct L as [Lb Lm].
  assert (forall l, ~ empty l \/ ~ ~ empty l) as D by (intros l; destruct (empty_dec l); tauto).
  destruct (split_while (fun l => ~ empty l) D more) as (ls & v & -> & NE & HV). apply Forall_app in Lm. destruct Lm as [Ll Lv].
  rewrite concat_app, <- app_assoc.
  assert (begun ls \/ ls = []) as BG.
  { destruct ls as [|l ls]; [right; reflexivity|left]. cbn [app] in HM. split; [exact Ll|]. split; [exact NE|exact HM]. }
  destruct v as [|last v].
  - rewrite app_nil_r. destruct e as [| |t].
    + destruct BG as [BG| ->].
      * destruct ls as [|l ls]; [destruct BG as (_ & _ & [])|].
        destruct (means_total (without_controls l) (map without_controls (ls ++ [tail]))) as (o & M).
        { apply nonblank_clean. destruct BG as (_ & _ & H). exact H. }
        { destruct (begun_first (l :: ls) [without_controls tail] BG) as [X|X]; [left; exact X|right].
          rewrite map_app. exact X. }
        exists o, []. eapply an_cut_short; try eassumption; [reflexivity|left; exact BG|]. apply cleaned_lines. reflexivity.
      * cbn [List.concat app]. destruct (blank_dec tail) as [B|NB].
        -- eexists _, []. apply an_closed; [reflexivity|]. apply Forall_app. split; [|exact B].
           clear - Bb. induction Bb as [|b bs B F IH]; [constructor|]. cbn [List.concat]. apply Forall_app. split; assumption.
        -- destruct (means_total (without_controls tail) []) as (o & M); [apply nonblank_clean; exact NB|right; reflexivity|].
           exists o, []. replace tail with (List.concat [] ++ tail) by reflexivity.
           eapply an_cut_short; try eassumption; [reflexivity|right; split; [reflexivity|exact NB]|]. apply cleaned_lines. reflexivity.
    + eexists _, []. eapply an_stuck; try eassumption. left. split; reflexivity.
    + eexists _, []. eapply an_stuck; try eassumption. right. exists t. split; reflexivity.
  - assert (empty last) as EL by (destruct (empty_dec last); tauto).
    inversion Lv as [|? ? L1 L2]; subst. cbn [List.concat].
    destruct BG as [BG| ->].
    + destruct ls as [|l ls]; [destruct BG as (_ & _ & [])|].
      destruct (means_total (without_controls l) (map without_controls ls)) as (o & M).
      { apply nonblank_clean. destruct BG as (_ & _ & H). exact H. }
      { pose proof (begun_first (l :: ls) [] BG) as X. rewrite app_nil_r in X. exact X. }
      exists o, (List.concat v ++ tail).
      replace (List.concat bs ++ List.concat ((l :: ls) ++ last :: v) ++ tail) with (List.concat bs ++ List.concat (l :: ls) ++ last ++ (List.concat v ++ tail))
        by (rewrite concat_app; cbn [List.concat]; rewrite <- !app_assoc; reflexivity).
      eapply an_response; try eassumption. apply cleaned_lines. reflexivity.
    + exfalso. cbn [app] in HM. apply HM. apply blank_spec. apply empty_spec in EL.
      destruct (bytes_eqb_spec (without_controls last) [char_lf]) as [E|]; [|discriminate]. rewrite E. reflexivity.
Qed.

Lemma get_later e s o rest : get_response e (mkChan false s) = (mkChan false rest, o) <-> answers e s o rest.
Proof.
  assert (get_response e (mkChan false s) = finish (read_lines (S (List.length s)) e false [] [] s)) as G.
  { unfold get_response, finish. cbn [c_first c_unread]. destruct (read_lines _ _ _ _ _ _) as [[? ?]|?]; reflexivity. }
  pose proof (newlines_le s) as NL. rewrite G. split.
  - intros E. destruct (answers_total e s) as (o' & rest' & A). rewrite (answers_read e s o' rest' _ A) in E by lia.
    apply pair_equal_spec in E. destruct E as [E1 E2]. injection E1 as ->. subst o'. exact A.
  - intros A. apply answers_read; [exact A|lia].
Qed.

(** *** The first response *)
Lemma read_lines_peeked f e c r : c <> char_lf -> read_lines f e false [c] [] r = read_lines f e false [] [] (c :: r).
Proof.
  intros N. destruct f as [|f]; [reflexivity|]. cbn [read_lines]. unfold get_response_line. cbn [readline].
  destruct (ceqb_spec c char_lf) as [X|_]; [contradiction|]. destruct (readline r) as [l rest] eqn:E.
  assert (ends_with_lf (c :: l) = ends_with_lf l) as EQ.
  { unfold ends_with_lf. cbn [rev]. destruct (rev l) as [|d u] eqn:R; cbn [app]; [|reflexivity]. destruct (ceqb_spec c char_lf); [contradiction|reflexivity]. }
  rewrite EQ. destruct (ends_with_lf l); [reflexivity|]. destruct e; reflexivity.
Qed.
Lemma plausible_spec c : existsb (ceqb c) [char_sp; char_tab; char_cr; char_lf; "#"%char; "="%char; "?"%char] = true <-> plausible c.
Proof.
  unfold plausible. rewrite existsb_exists. split.
  - intros (x & I & E). destruct (ceqb_spec c x) as [->|]; [|discriminate]. cbn [In] in I.
    destruct I as [<-|[<-|[<-|[<-|[<-|[<-|[<-|[]]]]]]]]; auto 10.
  - intros H. exists c. split; [cbn [In]; destruct H as [->|[->|[->|[->|[->|[->| ->]]]]]]; auto 10|]. destruct (ceqb_spec c c); [reflexivity|congruence].
Qed.
Lemma get_first e c s : plausible c -> get_response e (mkChan true (c :: s)) = get_response e (mkChan false (c :: s)).
Proof.
  intros P. unfold get_response. cbn [c_first c_unread]. unfold look_at_first_byte. cbn [get_response_byte].
  destruct (ceqb_spec c (chr 1)) as [->|_].
  { exfalso. unfold plausible in P. repeat (destruct P as [P|P]; [discriminate P|]). discriminate P. }
  rewrite (proj2 (plausible_spec c) P). cbn [negb]. destruct (ceqb_spec c char_lf) as [->|N].
  - assert (read_lines (S (List.length (char_lf :: s))) e false [] [] (char_lf :: s) = read_lines (S (List.length s)) e false [] [] s) as ->; [|reflexivity].
    cbn [List.length]. change (char_lf :: s) with (List.concat [[char_lf]] ++ s). change (S (S (List.length s))) with (List.length [[char_lf]] + S (List.length s))%nat.
    apply loop_blanks; [constructor; [exists []; split; [reflexivity|intros []]|constructor]|constructor; [|constructor]].
    constructor; [|constructor]. auto.
  - rewrite read_lines_peeked by exact N.
    assert (newlines (c :: s) <= List.length s)%nat as NL.
    { pose proof (newlines_le s). unfold newlines in *. cbn [count_occ]. destruct (ascii_dec c char_lf); [contradiction|lia]. }
    destruct (answers_total e (c :: s)) as (o & rest & A).
    pose proof (answers_read e (c :: s) o rest (S (List.length s)) A ltac:(lia)) as R1.
    pose proof (answers_read e (c :: s) o rest (S (List.length (c :: s))) A ltac:(cbn [List.length]; lia)) as R2.
    unfold finish in R1, R2. etransitivity; [exact R1|symmetry; exact R2].
Qed.
