(** More theorems on details of the code that earlier theorems left open; each was added because
    a wrong edit of the model was not rejected by the others. *)
From Coq Require Import List Bool ZArith Lia Ascii String QArith Qabs Lqa.
Import ListNotations.
From Verif Require Import Base Bytes PyStr Dict BoardModel CommonModel GameplayModel GameplaySpec GtpArgSpec.
From Verif Require SgfPropsModel SgfTreeModel GameSgfModel SettingsModel GtpGameModel JobStonesProofs TournModel ControlAllProofs
  ControlModel SgfLazyModel CemModel MctsModel ControllerModel ControllerSpec GtpArgProofs JobStonesProofs GameplayResultProofs.
Local Open Scope Z_scope.

(** ** C57: records without a komi *)
(** A game whose root has no KM property has komi zero; an interpretable one gives its value. *)
Theorem C57_komi_of_a_game : forall w g,
  (SgfTreeModel.get_prop w (SgfTreeModel.g_root g) (str "KM") = Err KeyError -> GameSgfModel.get_komi w g = Ok (0, O)) /\
  (forall m k, SgfTreeModel.get_prop w (SgfTreeModel.g_root g) (str "KM") = Ok (SgfPropsModel.VReal m k) -> GameSgfModel.get_komi w g = Ok (m, k)).
Proof. intros w g. unfold GameSgfModel.get_komi. split; [intros ->; reflexivity|intros m k ->; reflexivity]. Qed.

(** ** C44: control characters in messages *)
(** A text shown in an error message keeps its length; its control characters (C0, DEL and C1) are
    replaced by question marks, and its other characters are kept. *)
Theorem C44_clean_string : forall s,
  List.length (SettingsModel.clean_string s) = List.length s /\
  (forall i c, nth_error s i = Some c ->
     nth_error (SettingsModel.clean_string s) i =
       Some (if (Z.leb 32 (ord c) && Z.leb (ord c) 126) || Z.leb 160 (ord c) then c else "?"%char)) /\
  (forall c, In c (SettingsModel.clean_string s) -> 32 <= ord c <= 126 \/ 160 <= ord c).
Proof.
  intros s. unfold SettingsModel.clean_string.
  assert (H : forall c, (if SettingsModel.is_control c then "?"%char else c) =
                        (if (Z.leb 32 (ord c) && Z.leb (ord c) 126) || Z.leb 160 (ord c) then c else "?"%char)).
  { intros c. unfold SettingsModel.is_control.
    destruct (Z.leb_spec (ord c) 31), (Z.leb_spec 127 (ord c)), (Z.leb_spec (ord c) 159), (Z.leb_spec 32 (ord c)), (Z.leb_spec (ord c) 126), (Z.leb_spec 160 (ord c));
      cbn [orb andb]; try reflexivity; lia. }
  split; [apply map_length|]. split.
  - intros i c E. rewrite nth_error_map, E. cbn [option_map]. rewrite H. reflexivity.
  - intros c I. apply in_map_iff in I. destruct I as (d & <- & _). rewrite H.
    destruct ((32 <=? ord d) && (ord d <=? 126) || (160 <=? ord d)) eqn:E.
    + apply orb_true_iff in E. rewrite andb_true_iff, !Z.leb_le in E. lia.
    + left. replace (ord "?") with 63 by reflexivity. lia.
Qed.

(** ** C48: free handicaps *)
Lemma has_duplicate_spec l : GtpGameModel.has_duplicate l = false <-> NoDup l.
Proof.
  split; [apply JobStonesProofs.no_duplicate|]. induction 1 as [|p l N D IH]; [reflexivity|]. cbn. rewrite IH, orb_false_r.
  destruct (mem_point p l) eqn:E; [|reflexivity]. apply JobStonesProofs.mem_point_In in E. contradiction.
Qed.
(** The stones of a free handicap are those the engine names, provided it names points of the board
    (and no passes), all different; any other reply is an error. *)
Theorem C48_free_handicap : forall X (ch : colour -> ControllerModel.channel X) n s s' pts,
  GtpGameModel.get_free_handicap ch n s = (s', Ok pts) <->
  GtpGameModel.handicap_is n s = true /\
  exists g1 text, GtpGameModel.send_command ch (GtpGameModel.gb_gc s) Black (str "place_free_handicap") [str_int n] = (g1, ControllerModel.CRet text) /\
    s' = GtpGameModel.with_gc g1 s /\
    Forall2 (fun v p => move_from_vertex v (GtpGameModel.gb_size s) = Ok (Some p)) (split_on char_sp text) pts /\ NoDup pts.
Proof.
  intros X ch n s s' pts. unfold GtpGameModel.get_free_handicap. destruct (GtpGameModel.handicap_is n s).
  2:{ cbn [negb]. split; [discriminate|intros [K _]; discriminate K]. }
  cbn [negb]. destruct (GtpGameModel.send_command ch (GtpGameModel.gb_gc s) Black (str "place_free_handicap") [str_int n]) as [g1 r].
  split.
  - intros E. split; [reflexivity|]. destruct r as [text| | |]; try discriminate E.
    exists g1, text. split; [reflexivity|]. apply pair_equal_spec in E. destruct E as [<- E]. split; [reflexivity|].
    destruct (mapm _ _) as [moves|x] eqn:M; [|discriminate E]. destruct (GtpGameModel.all_points moves) as [ps|] eqn:A; [|discriminate E].
    destruct (GtpGameModel.has_duplicate ps) eqn:D; [discriminate E|]. assert (ps = pts) by congruence. subst ps.
    apply JobStonesProofs.all_points_some in A. subst moves. apply JobStonesProofs.mapm_forall2 in M.
    split; [exact (JobStonesProofs.forall2_map_r _ _ _ _ M)|]. apply has_duplicate_spec. exact D.
  - intros [_ (g1' & text & E & -> & F & N)]. apply pair_equal_spec in E. destruct E as [<- ->]. f_equal.
    assert (M : mapm (fun v => move_from_vertex v (GtpGameModel.gb_size s)) (split_on char_sp text) = Ok (map Some pts)).
    { clear N. induction F as [|v p l l' V F IH]; [reflexivity|]. cbn [mapm map]. rewrite V. cbn [bind]. rewrite IH. reflexivity. }
    rewrite M. assert (A : GtpGameModel.all_points (map Some pts) = Some pts).
    { clear. induction pts as [|p l IH]; [reflexivity|]. cbn. rewrite IH. reflexivity. }
    rewrite A, (proj2 (has_duplicate_spec pts) N). reflexivity.
Qed.

(** ** C27: the codes of competitors *)
(** Competitors after the 702nd cannot be given a code. *)
Theorem C27_short_codes : forall i,
  if Nat.ltb i 702 then exists c, TournModel.short_code i = Ok c /\ (List.length c = if Nat.ltb i 26 then 1%nat else 2%nat)
  else TournModel.short_code i = Err ValueError.
Proof.
  intros i. unfold TournModel.short_code. destruct (Nat.ltb_spec i 702), (Z.ltb_spec (Z.of_nat i) 26), (Z.ltb_spec (Z.of_nat i) (26 * 27)); try lia; try reflexivity;
    (eexists; split; [reflexivity|]); destruct (Nat.ltb_spec i 26); try lia; reflexivity.
Qed.

(** ** C68: positions of child nodes *)
(** [index] gives the position of the first occurrence, or ValueError. *)
Theorem C68_index : forall l x,
  match SgfLazyModel.py_index l x 0 with
  | Ok i => 0 <= i /\ nth_error l (Z.to_nat i) = Some x /\ forall j, (j < Z.to_nat i)%nat -> nth_error l j <> Some x
  | Err e => e = ValueError /\ ~ In x l
  end.
Proof.
  intros l x.
  assert (H : forall l k, match SgfLazyModel.py_index l x k with
    | Ok i => k <= i /\ nth_error l (Z.to_nat (i - k)) = Some x /\ forall j, (j < Z.to_nat (i - k))%nat -> nth_error l j <> Some x
    | Err e => e = ValueError /\ ~ In x l end).
  { clear l. induction l as [|y r IH]; intros k; cbn [SgfLazyModel.py_index].
    - split; [reflexivity|intros []].
    - destruct (Nat.eqb_spec x y) as [->|N].
      + split; [lia|]. rewrite Z.sub_diag. split; [reflexivity|]. intros j L. cbn in L. lia.
      + specialize (IH (k + 1)). destruct (SgfLazyModel.py_index r x (k + 1)) as [i|e].
        * destruct IH as (A & B & C). split; [lia|]. replace (Z.to_nat (i - k)) with (S (Z.to_nat (i - (k + 1)))) by lia.
          split; [exact B|]. intros [|j] L; [cbn; congruence|cbn; apply C; lia].
        * destruct IH as (A & B). split; [exact A|]. intros [E|I]; [congruence|contradiction]. }
  specialize (H l 0). destruct (SgfLazyModel.py_index l x 0) as [i|e]; [|exact H]. rewrite Z.sub_0_r in H. exact H.
Qed.

(** ** C43, C49: the candidate's colour *)
(** The candidate has its configured colour; without one, the tossed coin decides. *)
Theorem C43_candidate_colour : forall (V P : Type) (t t' : @CemModel.ctuner V P) j, CemModel.get_game t = (t', Ok (Some j)) ->
  let cf := CemModel.ct_conf t in
  let black := match CemModel.cc_colour cf with Some Black => true | Some White => false | None => CemModel.cc_coin cf (CemModel.ct_used t) end in
  fst (if black then CemModel.cj_white j else CemModel.cj_black j) = CemModel.cc_opponent cf /\
  snd (if black then CemModel.cj_white j else CemModel.cj_black j) = CemModel.cc_opponent_player cf /\
  In (if black then CemModel.cj_black j else CemModel.cj_white j) (CemModel.ct_candidates t) /\
  CemModel.ct_used t' = match CemModel.cc_colour cf with Some _ => CemModel.ct_used t | None => S (CemModel.ct_used t) end.
Proof.
  intros V P t t' j E cf black. unfold CemModel.get_game in E. cbv zeta in E.
  destruct (SchedModel.gissue (CemModel.ct_sched t)) as [s [[[code rid]|]|e]]; try discriminate E.
  destruct (nth_error (CemModel.ct_candidates t) _) as [cand|] eqn:EC; [|discriminate E]. apply nth_error_In in EC.
  subst black. unfold CemModel.choose_candidate_colour in E. fold cf in E.
  destruct (CemModel.cc_colour cf) as [[|]|]; [| |destruct (CemModel.cc_coin cf (CemModel.ct_used t))];
    (destruct (nth_error (CemModel.ct_samples t) _); [|discriminate E]);
    (destruct (CemModel.transform_parameters cf _); [|discriminate E]);
    injection E as <- <-; cbn; auto.
Qed.

(** ** C34: infinite and tiny margins *)
Lemma small_value m k : (Z.abs m * 2 ^ 1075 <=? 10 ^ Z.of_nat k) = true <-> (Qabs (value (m, k)) <= 1 / inject_Z (2 ^ 1075))%Q.
Proof.
  rewrite GtpArgProofs.value_abs, Z.leb_le. unfold value. cbn [fst snd].
  assert (PB : 0 < 2 ^ 1075) by (apply Z.pow_pos_nonneg; [reflexivity|discriminate]). revert PB.
  generalize (2 ^ 1075) as B. intros B PB. assert (PB' : (0 < inject_Z B)%Q) by (change 0%Q with (inject_Z 0); rewrite <- Zlt_Qlt; exact PB).
  assert (PT : 0 < 10 ^ Z.of_nat k) by (apply Z.pow_pos_nonneg; [reflexivity|lia]). revert PT.
  generalize (10 ^ Z.of_nat k) as T. intros T PT. assert (PT' : (0 < inject_Z T)%Q) by (change 0%Q with (inject_Z 0); rewrite <- Zlt_Qlt; exact PT).
  generalize (Z.abs m) as a. intros a. rewrite Zle_Qle, inject_Z_mult. split; intros H.
  - apply Qle_shift_div_l; [exact PB'|]. unfold Qdiv. rewrite <- Qmult_assoc, (Qmult_comm (/ _)), Qmult_assoc.
    apply Qle_shift_div_r; [exact PT'|]. rewrite Qmult_1_l. exact H.
  - assert (E : (inject_Z a == inject_Z a / inject_Z T * inject_Z T)%Q) by (field; lra). rewrite E.
    apply (Qmult_le_compat_r _ _ (inject_Z T * inject_Z B)%Q) in H; [|apply Qmult_le_0_compat; lra].
    eapply Qle_trans; [rewrite <- Qmult_assoc; exact H|]. apply Qle_lteq. right. field. lra.
Qed.
Lemma not_a_word s x : SgfPropsModel.py_float s = Ok x ->
  let l := map lower_char (snd (SgfPropsModel.parse_sign (strip s))) in
  bytes_eqb l (str "inf") = false /\ bytes_eqb l (str "infinity") = false /\ bytes_eqb l (str "nan") = false.
Proof.
  intros E. unfold SgfPropsModel.py_float in E. destruct (SgfPropsModel.parse_sign (strip s)) as [neg r]. cbn [snd].
  assert (H : forall c r', r = c :: r' -> lower_char c <> "i"%char /\ lower_char c <> "n"%char).
  { intros c r' ->. split; intros L; revert E;
      (destruct c as [b0 b1 b2 b3 b4 b5 b6 b7]; destruct b0, b1, b2, b3, b4, b5, b6, b7; vm_compute in L; try discriminate L; cbn; discriminate). }
  destruct r as [|c r']; [cbn in E; discriminate E|]. specialize (H c r' eq_refl). destruct H as [H1 H2].
  cbn [map str]. repeat split; match goal with |- bytes_eqb ?a ?b = false => destruct (bytes_eqb_spec a b) as [K|]; [injection K; intros; contradiction|reflexivity] end.
Qed.
(** A number that is read is infinite exactly when it is at least halfway from the largest binary64
    number to 2^1024, and zero exactly when it is at most half the smallest one. *)
Theorem C34_float_range : forall s q, float_literal s q ->
  exists f, GtpGameModel.float_of s = Some f /\
    ((float_max <= Qabs q)%Q -> exists neg, f = GtpGameModel.FInf neg /\ (neg = true <-> (q < 0)%Q)) /\
    ((Qabs q <= 1 / inject_Z (2 ^ 1075))%Q -> exists x, f = GtpGameModel.FNum x /\ (value x == 0)%Q) /\
    ((Qabs q < float_max)%Q -> (1 / inject_Z (2 ^ 1075) < Qabs q)%Q -> exists x, f = GtpGameModel.FNum x /\ (value x == q)%Q).
Proof.
  intros s q L. destruct (GtpArgProofs.py_float_literal_fwd s q L) as ((m & k) & E & V).
  destruct (not_a_word s _ E) as (N1 & N2 & N3). unfold GtpGameModel.float_of. destruct (SgfPropsModel.parse_sign (strip s)) as [neg r].
  cbn [snd] in N1, N2, N3. cbv zeta. rewrite N1, N2, N3, E. cbn [orb]. eexists. split; [reflexivity|].
  pose proof (GtpArgProofs.interpret_real_big m k) as B. rewrite V in B.
  pose proof (small_value m k) as SM. rewrite V in SM.
  destruct ((2 ^ 1024 - 2 ^ 970) * 10 ^ Z.of_nat k <=? Z.abs m) eqn:EB.
  - assert (BB := proj1 B eq_refl). split; [|split].
    + intros _. eexists. split; [reflexivity|]. rewrite Z.ltb_lt, <- V. unfold value. cbn [fst snd]. pose proof (GameplayResultProofs.pow10_Q k) as P.
      split; intros H.
      * apply Qlt_shift_div_r; [lra|]. rewrite Qmult_0_l. change 0%Q with (inject_Z 0). rewrite <- Zlt_Qlt. exact H.
      * rewrite Zlt_Qlt. change (inject_Z 0) with 0%Q. apply Qnot_le_lt. intros K. apply (Qlt_not_le _ _ H). apply Qle_shift_div_l; [lra|]. rewrite Qmult_0_l. exact K.
    + intros H. exfalso. assert (K := Qle_trans _ _ _ BB H). vm_compute in K. apply K. reflexivity.
    + intros H. exfalso. exact (Qlt_not_le _ _ H BB).
  - split; [|split].
    + intros H. discriminate (proj2 B H).
    + intros H. rewrite (proj2 SM H). exists (0, O). split; [reflexivity|]. reflexivity.
    + intros _ H. destruct (Z.abs m * 2 ^ 1075 <=? 10 ^ Z.of_nat k) eqn:ES.
      * exfalso. exact (Qlt_not_le _ _ H (proj1 SM eq_refl)).
      * exists (m, k). split; [reflexivity|exact V].
Qed.


(** ** C53: settings that are not given *)
(** The first setting of a matchup with neither a value nor a default is named in the error. *)
Theorem C53_missing_setting : forall pre s rest parameters values,
  Forall2 (fun x v => dget (SettingsModel.st_name x) parameters = Some v \/
                      dget (SettingsModel.st_name x) parameters = None /\ SettingsModel.get_default x = SettingsModel.Good v) pre values ->
  dget (SettingsModel.st_name s) parameters = None -> SettingsModel.get_default s = SettingsModel.Bad SettingsModel.SKey ->
  ControlModel.fill (pre ++ s :: rest) parameters =
    SettingsModel.Bad (SettingsModel.SValue (str "'" ++ SettingsModel.st_name s ++ str "' not specified")).
Proof.
  intros pre s rest parameters values F N D. induction F as [|x v pre values H F IH]; cbn [app ControlModel.fill].
  - rewrite N, D. reflexivity.
  - destruct H as [-> |[-> ->]]; cbn [SettingsModel.sbind]; rewrite IH; reflexivity.
Qed.

Example C44_demo : SettingsModel.clean_string (str "ab" ++ [chr 9; chr 155; chr 200]) = str "ab??" ++ [chr 200].
Proof. reflexivity. Qed.
Example C27_demo : TournModel.short_code 27 = Ok (str "AB") /\ TournModel.short_code 701 = Ok (str "ZZ") /\ TournModel.short_code 702 = Err ValueError.
Proof. repeat split. Qed.
Example C68_demo : SgfLazyModel.py_index [4; 7; 9; 7]%nat 7%nat 0 = Ok 1.
Proof. reflexivity. Qed.

Print Assumptions C57_komi_of_a_game.
Print Assumptions C44_clean_string.
Print Assumptions C48_free_handicap.
Print Assumptions C27_short_codes.
Print Assumptions C68_index.
Print Assumptions C43_candidate_colour.
Print Assumptions C34_float_range.
Print Assumptions C53_missing_setting.
