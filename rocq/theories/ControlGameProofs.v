(** Reading game settings (C53-C55). *)
From Coq Require Import QArith.
From Verif Require Import Base Bytes PyStr Dict SgfPropsSpec CommonModel GameplayModel TournModel
  SettingsModel SettingsSpec SettingsProofs SettingsLoadProofs SettingsConfigProofs SettingsMoreProofs ControlModel ControlSpec ControlProofs ControlPlayerProofs.
From Verif Require GtpModel.
Open Scope Z_scope.

(** ** Values from several dicts *)
Fixpoint found (ds : list (dict pyval)) (s : setting) (y : pyval) : Prop :=
  match ds with
  | [] => st_default s = Some y
  | d :: rest => present d s y \/ (dget (st_name s) d = None /\ found rest s y)
  end.
Lemma given_fun config name v w : given config name v -> given config name w -> v = w.
Proof.
  intros (x & E & H) (x' & E' & H'). assert (x' = x) by congruence. subst x'.
  destruct H as [[-> N]|(c & ->)], H' as [[-> N']|(c' & X)]; try reflexivity; try congruence.
Qed.
Lemma found_fun ds s y z : found ds s y -> found ds s z -> y = z.
Proof.
  induction ds as [|d ds IH]; cbn [found]; [congruence|]. intros [(v & G & E)|[N F]] [(v' & G' & E')|[N' F']].
  - pose proof (given_fun _ _ _ _ G G'). congruence.
  - exfalso. exact (given_not_none _ _ _ G N').
  - exfalso. exact (given_not_none _ _ _ G' N).
  - auto.
Qed.
Lemma found_bridge {A} ds s name (conv : pyval -> sres A) R default a :
  st_name s = str name -> reads (st_interpreter s) conv R -> converts conv (st_default s) default ->
  (exists y, found ds s y /\ conv y = Good a) <-> value_in ds name R default a.
Proof.
  intros N RD CV. unfold present. induction ds as [|d ds IH]; cbn [found value_in].
  - split.
    + intros (y & E & C). rewrite E in CV. destruct CV as (a' & C' & ->). congruence.
    + intros E. destruct (st_default s) as [y|]; cbn in CV; [|congruence]. destruct CV as (a' & C & E'). exists y. split; [reflexivity|congruence].
  - unfold present. rewrite N in *. rewrite <- IH. split.
    + intros (y & [(v & G & I)|[D F]] & C); [left; exists v; split; [exact G|]; apply RD; eauto|right; eauto].
    + intros [(v & G & H)|(D & y & F & C)]; [|eauto]. apply RD in H. destruct H as (y & I & C). exists y. split; [left; eauto|exact C].
Qed.

Definition all_found (ds : list (dict pyval)) (settings : list setting) (d : dict pyval) : Prop :=
  Forall2 (fun s p => fst p = st_name s /\ found ds s (snd p)) settings d.
Lemma load_found settings config d : never_keys settings ->
  load_settings settings config true false = Good d <-> all_found [config] settings d.
Proof. intros NK. exact (load_good settings config d NK). Qed.
Lemma all_found_get ds settings d s : all_found ds settings d -> NoDup (map st_name settings) -> In s settings ->
  exists y, dget (st_name s) d = Some y /\ found ds s y.
Proof.
  intros F. induction F as [|s' [n y] settings d [E L] F IH]; intros ND I; [destruct I|]. cbn [map] in ND. inversion ND as [|? ? N ND']; subst. cbn [fst snd] in *. subst n.
  destruct I as [<-|I].
  - exists y. cbn [dget]. rewrite bytes_eqb_refl. auto.
  - destruct (IH ND' I) as (z & G & L'). exists z. split; [|exact L']. cbn [dget]. destruct (bytes_eqb_spec (st_name s) (st_name s')) as [X|_]; [|exact G].
    exfalso. apply N. rewrite <- X. apply in_map. exact I.
Qed.
Lemma all_found_total ds settings : (forall s, In s settings -> exists y, found ds s y) -> exists d, all_found ds settings d.
Proof.
  induction settings as [|s l IH]; intros H; [exists []; constructor|]. destruct (H s (or_introl eq_refl)) as (y & Y). destruct IH as (d & F); [intros z I; apply H; right; exact I|].
  exists ((st_name s, y) :: d). constructor; [auto|exact F].
Qed.
Lemma get_value {A} ds settings d s name (conv : pyval -> sres A) R default a :
  all_found ds settings d -> NoDup (map st_name settings) -> In s settings ->
  st_name s = str name -> reads (st_interpreter s) conv R -> converts conv (st_default s) default ->
  (try v <- get name d; conv v) = Good a <-> value_in ds name R default a.
Proof.
  intros F ND I N RD CV. destruct (all_found_get ds settings d s F ND I) as (y & G & L). rewrite <- (found_bridge ds s name conv R default a N RD CV).
  unfold get. rewrite <- N, G. cbn [sbind]. split; [eauto|]. intros (y' & L' & C). rewrite (found_fun _ _ _ _ L L'). exact C.
Qed.

(** ** Loading where settings can be missing *)
Lemma load_partial_get settings config ad d s : never_keys settings -> NoDup (map st_name settings) -> load_settings settings config ad true = Good d -> In s settings ->
  forall y, dget (st_name s) d = Some y <-> present config s y \/ (dget (st_name s) config = None /\ ad = true /\ st_default s = Some y).
Proof.
  intros NK ND L I y. apply load_settings_spec in L; [|exact NK]. destruct (loads_value _ _ _ _ _ L d eq_refl ND s I) as (o & O & D & _).
  rewrite D. inversion O as [v x G EI X|x E EA ED X|E N X| | |]; subst.
  - split; [intros Y; injection Y as <-; left; exists v; auto|]. intros [(v' & G' & E')|[N _]]; [pose proof (given_fun _ _ _ _ G G'); congruence|exfalso; exact (given_not_none _ _ _ G N)].
  - split; [intros Y; injection Y as <-; auto|]. intros [(v' & G' & _)|[_ [_ E']]]; [exfalso; exact (given_not_none _ _ _ G' E)|congruence].
  - split; [discriminate|]. intros [(v' & G' & _)|[_ [EA E']]]; [exfalso; exact (given_not_none _ _ _ G' E)|]. destruct N; congruence.
Qed.
Lemma load_partial_ok settings config ad : never_keys settings ->
  (exists d, load_settings settings config ad true = Good d) <-> (forall s, In s settings -> dget (st_name s) config = None \/ exists y, present config s y).
Proof.
  intros NK. split.
  - intros (d & L) s I. apply load_settings_spec in L; [|exact NK]. remember (Good d) as r eqn:ER. revert d ER. revert I. clear NK.
    induction L as [|s' rest x d' O L IH|s' rest d' O AM L IH| | |]; intros I d ER; try discriminate; [destruct I| |].
    + destruct I as [<-|I]; [|exact (IH I d' eq_refl)]. inversion O as [v y G EI X|y E EA ED X| | | |]; subst; [right; exists x, v; auto|auto].
    + destruct I as [<-|I]; [|exact (IH I d' eq_refl)]. inversion O as [| |E N X| | |]; subst. auto.
  - intros H. induction settings as [|s l IH]; [exists []; reflexivity|]. inversion NK as [|? ? NK1 NK2]; subst.
    destruct (IH NK2) as (d & L); [intros s' I; apply H; right; exact I|].
    assert (O : exists o, outcome ad config s (Good o)).
    { destruct (H s (or_introl eq_refl)) as [N|(y & v & G & E)].
      - destruct ad; [destruct (st_default s) as [y|] eqn:D; [exists (Some y); apply oc_default; auto|exists None; apply oc_missing; auto]|exists None; apply oc_missing; auto].
      - exists (Some y). eapply oc_value; eassumption. }
    destruct O as ([y|] & O).
    + exists ((st_name s, y) :: d). apply load_settings_spec; [exact NK|]. apply ld_set; [exact O|]. apply load_settings_spec; assumption.
    + exists d. apply load_settings_spec; [exact NK|]. apply ld_skip; [exact O|reflexivity|]. apply load_settings_spec; assumption.
Qed.
Lemma load_nodup settings config ad am d : never_keys settings -> NoDup (map st_name settings) -> load_settings settings config ad am = Good d -> NoDup (map fst d).
Proof.
  intros NK ND L. apply load_settings_spec in L; [|exact NK]. clear NK. remember (Good d) as r eqn:ER. revert d ER ND.
  induction L as [|s rest x d' O L IH|s rest d' O AM L IH| | |]; intros d ER ND; try discriminate; injection ER as <-.
  - constructor.
  - cbn [map] in *. inversion ND as [|? ? N ND']; subst. constructor; [|exact (IH d' eq_refl ND')]. intros I. apply N. exact (loads_names _ _ _ _ _ L d' eq_refl _ I).
  - cbn [map] in ND. inversion ND as [|? ? N ND']; subst. exact (IH d' eq_refl ND').
Qed.
Lemma load_names settings config ad am d : never_keys settings -> load_settings settings config ad am = Good d ->
  forall n, In n (map fst d) -> In n (map st_name settings).
Proof. intros NK L. apply load_settings_spec in L; [|exact NK]. exact (loads_names _ _ _ _ _ L d eq_refl). Qed.
Lemma update_get {A} (e d : dict A) n : NoDup (map fst e) -> dget n (update d e) = match dget n e with Some v => Some v | None => dget n d end.
Proof.
  unfold update. revert d. induction e as [|[k v] e IH]; intros d ND; [reflexivity|]. cbn [fold_left fst snd map] in *. inversion ND as [|? ? N ND']; subst.
  rewrite IH by exact ND'. cbn [dget]. rewrite dget_dset. destruct (bytes_eqb_spec n k) as [->|NE]; [|destruct (dget n e); reflexivity].
  rewrite (proj2 (dget_None k e) N). reflexivity.
Qed.

Lemma fill_get settings parameters d : NoDup (map st_name settings) ->
  fill settings parameters = Good d <->
  Forall2 (fun s p => fst p = st_name s /\ (dget (st_name s) parameters = Some (snd p) \/ (dget (st_name s) parameters = None /\ st_default s = Some (snd p)))) settings d.
Proof.
  intros _. revert d. induction settings as [|s l IH]; intros d; cbn [fill].
  - split; [intros E; injection E as <-; constructor|intros F; inversion F; reflexivity].
  - rewrite bind_good. split.
    + intros (y & E & H). apply bind_good in H. destruct H as (r & F & X). injection X as <-. constructor; [|apply IH; exact F]. cbn [fst snd]. split; [reflexivity|].
      destruct (dget (st_name s) parameters) as [v|]; [left; congruence|right]. split; [reflexivity|]. unfold get_default in E. destruct (st_default s); congruence.
    + intros F. inversion F as [|? [n y] ? r [E H] F']; subst. cbn [fst snd] in *. subst n. exists y. split.
      * destruct H as [->|[-> D]]; [reflexivity|]. unfold get_default. rewrite D. reflexivity.
      * apply bind_good. exists r. split; [apply IH; exact F'|reflexivity].
Qed.
(** The values for a matchup: its own, or those at the top level, or the defaults. *)
Lemma fill_found settings config arguments defaults interpreted d : never_keys settings -> NoDup (map st_name settings) ->
  load_settings settings config true true = Good defaults -> load_settings settings arguments false true = Good interpreted ->
  fill settings (update defaults interpreted) = Good d <-> all_found [arguments; config] settings d.
Proof.
  intros NK ND LC LA. rewrite (fill_get settings _ d ND). unfold all_found.
  assert (S : forall s y, In s settings -> (dget (st_name s) (update defaults interpreted) = Some y \/
     (dget (st_name s) (update defaults interpreted) = None /\ st_default s = Some y)) <-> found [arguments; config] s y).
  { intros s y I. rewrite (update_get _ _ _ (load_nodup _ _ _ _ _ NK ND LA)). cbn [found].
    pose proof (load_partial_get _ _ _ _ s NK ND LC I) as C. pose proof (load_partial_get _ _ _ _ s NK ND LA I) as A.
    pose proof (proj1 (load_partial_ok settings arguments false NK) (ex_intro _ _ LA) s I) as AK.
    pose proof (proj1 (load_partial_ok settings config true NK) (ex_intro _ _ LC) s I) as CK.
    destruct (dget (st_name s) interpreted) as [v|].
    - destruct (proj1 (A v) eq_refl) as [P|(_ & X & _)]; [|discriminate]. split.
      + intros [X|[X _]]; [|discriminate]. injection X as <-. left. exact P.
      + intros [P'|[N _]]; [left; apply A; auto|]. destruct P as (w & G & _). exfalso. exact (given_not_none _ _ _ G N).
    - assert (NA : dget (st_name s) arguments = None).
      { destruct AK as [N|(y' & P)]; [exact N|]. exfalso. assert (None = Some y') by (apply A; auto). discriminate. }
      destruct (dget (st_name s) defaults) as [v|].
      + pose proof (proj1 (C v) eq_refl) as P. split.
        * intros [X|[X _]]; [|discriminate]. injection X as <-. right. split; [exact NA|]. destruct P as [P|(N & _ & D)]; auto.
        * intros [(w & G & _)|[_ H]]; [exfalso; exact (given_not_none _ _ _ G NA)|]. left. apply C. destruct H as [P'|[N D]]; auto.
      + assert (NC : dget (st_name s) config = None /\ st_default s = None).
        { destruct CK as [N|(y' & P)]; [|exfalso; assert (None = Some y') by (apply C; auto); discriminate]. split; [exact N|].
          destruct (st_default s) as [y'|] eqn:D; [|reflexivity]. exfalso. assert (None = Some y') by (apply C; auto). discriminate. }
        destruct NC as [NC D]. split.
        * intros [X|[_ X]]; [discriminate|congruence].
        * intros [(w & G & _)|[_ [(w & G & _)|[_ X]]]]; [exfalso; exact (given_not_none _ _ _ G NA)|exfalso; exact (given_not_none _ _ _ G NC)|congruence]. }
  clear LC LA NK ND. revert d. induction settings as [|s l IH]; intros d.
  - split; intros F; inversion F; constructor.
  - split; intros F; inversion F as [|? p ? d' [E H] F']; subst; (constructor; [split; [exact E|apply (S s); [left; reflexivity|exact H]]|]);
      (apply IH; [intros s' y I; apply (S s' y); right; exact I|exact F']).
Qed.

(** ** The game settings *)
Lemma int_reads_enum {A} (values : list bytes) (conv : pyval -> sres A) (table : list (string * A)) :
  values = map (fun p => str (fst p)) table ->
  (forall v s a, text v (str s) -> In s (map fst table) -> conv v = Good a <-> In (s, a) table) ->
  (forall s t, In s (map fst table) -> In t (map fst table) -> str s = str t -> s = t) ->
  reads (interpret_enum values) conv (choice_value table).
Proof.
  intros EV CV INJ v a. unfold choice_value. split.
  - intros (y & I & C). apply enum_ok in I. destruct I as (-> & s & T & IN). subst values. apply in_map_iff in IN. destruct IN as ([n b] & <- & IN). cbn [fst] in *.
    exists n. split; [exact T|]. apply (CV v n a T); [apply in_map_iff; exists (n, b); auto|exact C].
  - intros (s & T & IN). exists v. split.
    + apply enum_ok. split; [reflexivity|]. exists (str s). split; [exact T|]. subst values. apply in_map_iff. exists (s, a). auto.
    + apply (CV v s a T); [apply in_map_iff; exists (s, a); auto|exact IN].
Qed.
Definition style_table : list (string * bool) := [("fixed"%string, false); ("free"%string, true)].
Definition scorer_table : list (string * bool) := [("internal"%string, true); ("players"%string, false)].
Definition compensation_table : list (string * compensation) := [("no"%string, CompNo); ("full"%string, CompFull); ("short"%string, CompShort)].
Lemma text_as v s : text v s -> as_text v = Good s.
Proof. apply as_text_spec. Qed.
Lemma reads_style : reads (interpret_enum [str "fixed"; str "free"]) is_free (choice_value style_table).
Proof.
  apply int_reads_enum; [reflexivity| |].
  - intros v s a T I. unfold is_free. rewrite (text_as _ _ T). cbn [sbind]. cbn in I. destruct I as [<-|[<-|[]]].
    + change (bytes_eqb (str "fixed") (str "free")) with false. split; [intros E; injection E as <-; left; reflexivity|].
      intros [X|[X|[]]]; injection X as X; [subst; reflexivity|discriminate].
    + change (bytes_eqb (str "free") (str "free")) with true. split; [intros E; injection E as <-; right; left; reflexivity|].
      intros [X|[X|[]]]; injection X as X; [discriminate|subst; reflexivity].
  - intros s t IS IT. cbn in IS, IT. destruct IS as [<-|[<-|[]]], IT as [<-|[<-|[]]]; intros E; try reflexivity; discriminate E.
Qed.
Definition scorer_of (v : pyval) : sres bool := try s <- as_text v; Good (bytes_eqb s (str "internal")).
Lemma reads_scorer : reads (interpret_enum [str "internal"; str "players"]) scorer_of (choice_value scorer_table).
Proof.
  apply int_reads_enum; [reflexivity| |].
  - intros v s a T I. unfold scorer_of. rewrite (text_as _ _ T). cbn [sbind]. cbn in I. destruct I as [<-|[<-|[]]].
    + change (bytes_eqb (str "internal") (str "internal")) with true. split; [intros E; injection E as <-; left; reflexivity|].
      intros [X|[X|[]]]; injection X as X; [subst; reflexivity|discriminate].
    + change (bytes_eqb (str "players") (str "internal")) with false. split; [intros E; injection E as <-; right; left; reflexivity|].
      intros [X|[X|[]]]; injection X as X; [discriminate|subst; reflexivity].
  - intros s t IS IT. cbn in IS, IT. destruct IS as [<-|[<-|[]]], IT as [<-|[<-|[]]]; intros E; try reflexivity; discriminate E.
Qed.
Lemma reads_compensation : reads (interpret_enum [str "no"; str "full"; str "short"]) as_compensation (choice_value compensation_table).
Proof.
  apply int_reads_enum; [reflexivity| |].
  - intros v s a T I. unfold as_compensation. rewrite (text_as _ _ T). cbn [sbind]. cbn in I. destruct I as [<-|[<-|[<-|[]]]].
    + change (bytes_eqb (str "no") (str "no")) with true. cbn iota. split; [intros E; injection E as <-; left; reflexivity|].
      intros [X|[X|[X|[]]]]; injection X as X; [subst; reflexivity|discriminate|discriminate].
    + change (bytes_eqb (str "full") (str "no")) with false. change (bytes_eqb (str "full") (str "full")) with true. cbn iota.
      split; [intros E; injection E as <-; right; left; reflexivity|].
      intros [X|[X|[X|[]]]]; injection X as X; [discriminate|subst; reflexivity|discriminate].
    + change (bytes_eqb (str "short") (str "no")) with false. change (bytes_eqb (str "short") (str "full")) with false. cbn iota.
      split; [intros E; injection E as <-; right; right; left; reflexivity|].
      intros [X|[X|[X|[]]]]; injection X as X; [discriminate|discriminate|subst; reflexivity].
  - intros s t IS IT. cbn in IS, IT. destruct IS as [<-|[<-|[<-|[]]]], IT as [<-|[<-|[<-|[]]]]; intros E; try reflexivity; discriminate E.
Qed.

Section Komi.
Variable to_num : pyfloat -> num.
Lemma settings_of_spec ds settings d s : all_found ds settings d -> NoDup (map st_name settings) -> incl game_settings settings ->
  settings_of to_num d = Good s <-> game_described to_num ds s.
Proof.
  intros F ND IN.
  assert (I1 : In (nth 0 game_settings (mkSetting [] interpret_any None)) settings) by (apply IN; cbn; tauto).
  assert (I2 : In (nth 1 game_settings (mkSetting [] interpret_any None)) settings) by (apply IN; cbn; tauto).
  assert (I3 : In (nth 2 game_settings (mkSetting [] interpret_any None)) settings) by (apply IN; cbn; tauto).
  assert (I4 : In (nth 3 game_settings (mkSetting [] interpret_any None)) settings) by (apply IN; cbn; tauto).
  assert (I5 : In (nth 4 game_settings (mkSetting [] interpret_any None)) settings) by (apply IN; cbn; tauto).
  assert (I6 : In (nth 5 game_settings (mkSetting [] interpret_any None)) settings) by (apply IN; cbn; tauto).
  assert (I7 : In (nth 6 game_settings (mkSetting [] interpret_any None)) settings) by (apply IN; cbn; tauto).
  cbn [nth game_settings] in I1, I2, I3, I4, I5, I6, I7.
  pose proof (fun a => get_value ds settings d _ "board_size" as_int size_value None a F ND I1 eq_refl reads_size eq_refl) as G1.
  pose proof (fun a => get_value ds settings d _ "komi" as_float float_value None a F ND I2 eq_refl reads_float eq_refl) as G2.
  pose proof (fun a => get_value ds settings d _ "handicap" (as_option as_int) (none_or int_value) (Some None) a F ND I3 eq_refl
    (reads_none _ _ _ int_not_none reads_int) (ex_intro _ None (conj eq_refl eq_refl))) as G3.
  pose proof (fun a => get_value ds settings d _ "handicap_style" is_free (choice_value style_table) (Some false) a F ND I4 eq_refl reads_style (ex_intro _ false (conj eq_refl eq_refl))) as G4.
  pose proof (fun a => get_value ds settings d _ "move_limit" as_int positive_value (Some 1000) a F ND I5 eq_refl reads_positive (ex_intro _ 1000 (conj eq_refl eq_refl))) as G5.
  pose proof (fun a => get_value ds settings d _ "scorer" scorer_of (choice_value scorer_table) (Some false) a F ND I6 eq_refl reads_scorer (ex_intro _ false (conj eq_refl eq_refl))) as G6.
  pose proof (fun a => get_value ds settings d _ "internal_scorer_handicap_compensation" as_compensation (choice_value compensation_table) (Some CompFull) a F ND I7 eq_refl
    reads_compensation (ex_intro _ CompFull (conj eq_refl eq_refl))) as G7.
  unfold settings_of, game_described. split.
  - intros H. apply bind_good in H. destruct H as (a1 & H1 & H). apply bind_good in H. destruct H as (a2 & H2 & H). apply bind_good in H. destruct H as (a3 & H3 & H).
    apply bind_good in H. destruct H as (a4 & H4 & H). apply bind_good in H. destruct H as (a5 & H5 & H). apply bind_good in H. destruct H as (a6 & H6 & H).
    apply bind_good in H. destruct H as (a7 & H7 & H). injection H as <-. cbn [s_board_size s_komi s_handicap s_free s_move_limit s_internal s_compensation].
    split; [apply G1; exact H1|]. split; [exists a2; split; [apply G2; exact H2|reflexivity]|]. split; [apply G3; exact H3|]. split; [apply G4; exact H4|].
    split; [apply G5; exact H5|]. split; [|apply G7; exact H7]. apply G6. apply bind_good in H6. destruct H6 as (v & E & C). rewrite E. cbn [sbind]. unfold scorer_of. rewrite C. reflexivity.
  - intros (H1 & (f & H2 & K) & H3 & H4 & H5 & H6 & H7). apply G1 in H1. apply G2 in H2. apply G3 in H3. apply G4 in H4. apply G5 in H5. apply G6 in H6. apply G7 in H7.
    rewrite H1, H2, H3, H4, H5. cbn [sbind]. apply bind_good in H6. destruct H6 as (v & E & C). rewrite E. cbn [sbind]. unfold scorer_of in C. apply bind_good in C. destruct C as (t & C & X).
    rewrite C. cbn [sbind]. rewrite H7. cbn [sbind]. assert (X' : bytes_eqb t (str "internal") = s_internal s) by congruence. rewrite X', <- K. destruct s. reflexivity.
Qed.
End Komi.
