(** Proofs about the records of GTP games (C60, C61). *)
From Coq Require Import QArith.
From Verif Require Import Base Bytes PyStr Dict BoardModel BoardSpec CommonModel SgfGrammarModel SgfGrammarSpec SgfTreeConvModel
  SgfPropsModel SgfPropsSpec SgfPropsProofs SgfValueSpec SgfValueProofs SgfTypeErrorProofs SgfTreeModel SgfTreeSpec SgfTreeProofs
  SgfNodeProofs SgfGameProofs SgfTreeMainProofs SgfMovesModel GameplayModel GameplaySpec
  ControllerModel GtpGameModel EngineModel GameSgfModel GameSgfSpec SgfChainProofs GameSgfProofs GameSgfDocProofs GameSgfReadProofs
  GameSgfMainProofs JobSgfModel JobSgfSpec.
Open Scope Z_scope.

(** ** describe_scoring *)

Lemma drop_spec u s : drop_point_zero u = s <-> u = s ++ str ".0" \/ (u = s /\ forall v, u <> v ++ str ".0").
Proof.
  assert (forall v, drop_point_zero (v ++ str ".0") = v) as A.
  { intros v. unfold drop_point_zero. change (str ".0") with (["."%char] ++ ["0"%char]). rewrite app_assoc, !rev_app_distr. cbn. apply rev_involutive. }
  assert ((forall v, u <> v ++ str ".0") -> drop_point_zero u = u) as B.
  { intros N. unfold drop_point_zero. destruct (rev u) as [|z [|p r]] eqn:E; try reflexivity.
    destruct (ceqb z "0"%char && ceqb p "."%char) eqn:C; [|reflexivity]. exfalso. apply andb_prop in C as (C1 & C2).
    destruct (ceqb_spec z "0"%char) as [->|]; [|discriminate]. destruct (ceqb_spec p "."%char) as [->|]; [|discriminate]. apply (N (rev r)). rewrite <- (rev_involutive u), E. cbn [rev]. rewrite <- app_assoc. reflexivity. }
  split.
  - intros <-. destruct (rev u) as [|z [|p r]] eqn:E.
    + right. assert (forall v, u <> v ++ str ".0") as N by (intros v ->; rewrite rev_app_distr in E; discriminate). split; [symmetry; auto|exact N].
    + right. assert (forall v, u <> v ++ str ".0") as N by (intros v ->; rewrite rev_app_distr in E; cbn in E; discriminate). split; [symmetry; auto|exact N].
    + assert (u = rev r ++ [p; z]) as U by (rewrite <- (rev_involutive u), E; cbn [rev]; rewrite <- app_assoc; reflexivity).
      destruct (ascii_dec z "0"%char) as [->|Nz]; [destruct (ascii_dec p "."%char) as [->|Np]|].
      * left. rewrite U. change [ "."%char; "0"%char] with (str ".0"). rewrite A. reflexivity.
      * right. assert (forall v, u <> v ++ str ".0") as N.
        { intros v Ev. rewrite U in Ev. change (str ".0") with ["."%char; "0"%char] in Ev.
          apply (f_equal (@rev ascii)) in Ev. rewrite !rev_app_distr in Ev. cbn in Ev. congruence. }
        split; [symmetry; auto|exact N].
      * right. assert (forall v, u <> v ++ str ".0") as N.
        { intros v Ev. rewrite U in Ev. change (str ".0") with ["."%char; "0"%char] in Ev.
          apply (f_equal (@rev ascii)) in Ev. rewrite !rev_app_distr in Ev. cbn in Ev. congruence. }
        split; [symmetry; auto|exact N].
  - intros [->|(-> & N)]; auto.
Qed.

Lemma normalise_reported s t : normalise_score t = s <-> reported_as s t.
Proof. apply drop_spec. Qed.

Lemma lines_join l : lines l = join [char_lf] l.
Proof.
  induction l as [|x r IH]; [reflexivity|]. destruct r as [|y r]; [reflexivity|].
  change (lines (x :: y :: r)) with (x ++ [char_lf] ++ lines (y :: r)). rewrite IH. reflexivity.
Qed.

Lemma describe_line r : describe r = result_line r.
Proof.
  unfold describe, result_line, gr_winner, gr_loser. destruct (r_winner (gr_base r)) as [[]|]; cbn [gr_player opponent_of]; rewrite <- !app_assoc; reflexivity.
Qed.

Lemma scoring_proof r scores : exists l, extra_lines r scores l /\ describe_scoring r scores = lines (result_line r :: l).
Proof.
  unfold describe_scoring. rewrite describe_line. destruct scores as [[b w]|]; [|exists []; split; [reflexivity|apply eq_sym, lines_join]].
  set (s := r_sgf (gr_base r)).
  assert (forall o : option bytes, (match o with Some t => negb (bytes_eqb (normalise_score t) s) | None => false end) = true <->
            exists t, o = Some t /\ ~ reported_as s t) as D.
  { intros [t|]; [|split; [discriminate|intros (t & E & _); discriminate]]. rewrite negb_true_iff. split.
    - intros N. exists t. split; [reflexivity|]. intros R. apply normalise_reported in R. rewrite R, bytes_eqb_refl in N. discriminate.
    - intros (t' & E & N). injection E as <-. destruct (bytes_eqb_spec (normalise_score t) s) as [R|]; [|reflexivity].
      exfalso. apply N, normalise_reported. exact R. }
  rewrite <- !lines_join.
  destruct (_ || _) eqn:E.
  - exists (report_line (gr_player_b r) b ++ report_line (gr_player_w r) w). split; [|reflexivity]. right. split; [|reflexivity].
    apply orb_prop in E as [E|E]; apply D in E as (t & -> & N); exists t; auto.
  - exists []. split; [|reflexivity]. left. split; [|reflexivity]. apply orb_false_elim in E as (E1 & E2).
    intros t [->| ->].
    + destruct (bytes_eqb_spec (normalise_score t) s) as [R|]; [apply normalise_reported; exact R|discriminate].
    + destruct (bytes_eqb_spec (normalise_score t) s) as [R|]; [apply normalise_reported; exact R|discriminate].
Qed.

(** ** The records *)

Lemma join_notes l old : l <> [] -> join [char_lf] (l ++ [[]; old]) = join [char_lf] l ++ [char_lf; char_lf] ++ old.
Proof.
  intros N. induction l as [|x r IH]; [congruence|]. destruct r as [|y r].
  - change (join [char_lf] ([x] ++ [[]; old])) with (x ++ [char_lf] ++ [] ++ [char_lf] ++ old). change (join [char_lf] [x]) with x. reflexivity.
  - change ((x :: y :: r) ++ [[]; old]) with (x :: (y :: r) ++ [[]; old]).
    change (join [char_lf] (x :: (y :: r) ++ [[]; old])) with (x ++ [char_lf] ++ join [char_lf] ((y :: r) ++ [[]; old])).
    change (join [char_lf] (x :: y :: r)) with (x ++ [char_lf] ++ join [char_lf] (y :: r)).
    rewrite IH by discriminate. rewrite <- !app_assoc. reflexivity.
Qed.

Section Record.
Variables (w0 : world) (size : Z).
Hypothesis (HS : 1 <= size <= 25).
Notation pr := (new_presenter size UTF_8).
Notation base := (List.length (w_nodes w0)).
Notation W := (world_of w0 pr).
Notation shown := (shown size).
Notation content_map := (content_map size).

Lemma prepend_ok d ps l : shown d ps -> l <> [] -> is_utf8 (join [char_lf] l) ->
  exists ps', prepend_notes (W ps) base l = (W ps', Ok tt) /\ shown (on_root (say_first (join [char_lf] l)) d) ps'.
Proof.
  intros S NE U. pose proof (shown_head _ _ _ S) as (m & rest & -> & (C1 & C2) & B).
  assert (0 < List.length (m :: rest))%nat as L by (cbn; lia).
  replace base with (base + 0)%nat by lia. unfold prepend_notes. rewrite world_has by exact L. cbn [nth].
  assert (forall raw r t, interpret pr (str "C") raw = Ok (VText t) -> remark_text r t ->
            shown (mkContent (ct_props (fst d)) (Some r), snd d) (dset (str "C") raw m :: rest)) as FIN.
  { intros raw r t I R. constructor; [|exact B]. cbn [fst]. split.
    - intros k N. cbn [ct_props]. rewrite dget_dset_other by exact N. apply C1. exact N.
    - cbn [ct_remark]. exists raw, t. split; [apply dget_dset_same|]. auto. }
  unfold on_root, say_first. destruct (ct_remark (fst d)) as [r|].
  - destruct C2 as (raw0 & t & G & I0 & CT).
    assert (dmem (str "C") m = true) as D by (unfold dmem; match goal with |- context [dget ?k ?m] => replace (dget k m) with (Some raw0) by (symmetry; exact G) end; reflexivity).
    match goal with |- context [dmem ?k ?m] => replace (dmem k m) with true by (symmetry; exact D) end.
    assert (get_prop (W (m :: rest)) (base + 0) (str "C") = Ok (VText t)) as GP.
    { etransitivity; [apply world_get; exact L|]. cbn [nth]. match goal with |- context [dget ?k ?m] => replace (dget k m) with (Some raw0) by (symmetry; exact G) end. exact I0. }
    rewrite GP, join_notes by exact NE.
    destruct (set_ok w0 size HS (m :: rest) 0 (str "C") PT_text (VText (join [char_lf] l ++ [char_lf; char_lf] ++ t))) as (raw & E & v' & I & R); auto; [discriminate| |].
    { apply is_utf8_app; [exact U|]. apply is_utf8_app; [apply ascii_utf8; reflexivity|].
      exact (C18_utf8_proof PT_text raw0 _ _ I0). }
    eexists. split; [exact E|]. cbn [update nth]. destruct v'; try contradiction. eapply FIN; [exact I|]. econstructor; [exact CT|exact R].
  - assert (dmem (str "C") m = false) as D by (unfold dmem; match goal with |- context [dget ?k ?m] => replace (dget k m) with (@None (list bytes)) by (symmetry; exact C2) end; reflexivity).
    match goal with |- context [dmem ?k ?m] => replace (dmem k m) with false by (symmetry; exact D) end.
    destruct (set_ok w0 size HS (m :: rest) 0 (str "C") PT_text (VText (join [char_lf] l))) as (raw & E & v' & I & R); auto; [discriminate|].
    eexists. split; [exact E|]. cbn [update nth]. destruct v'; try contradiction. eapply FIN; [exact I|]. constructor. exact R.
Qed.

Lemma comment_opt_ok d ps o : shown d ps -> maybe_utf8 o ->
  exists ps', comment_opt (W ps) (base + List.length (snd d)) o = (W ps', Ok tt) /\ shown (on_end (say_if o) d) ps'.
Proof.
  intros S U. destruct o as [s|]; [apply say_end; auto|]. exists ps. split; [reflexivity|].
  replace (on_end (say_if None) d) with d; [exact S|]. destruct d as [c l]. unfold on_end. cbn [fst snd].
  destruct (exists_last_or l) as [->|(l' & x & ->)]; [reflexivity|]. rewrite rev_app_distr. cbn [rev app say_if]. rewrite rev_involutive. reflexivity.
Qed.

Lemma on_end_length f d : List.length (snd (on_end f d)) = List.length (snd d).
Proof.
  destruct d as [c l]. unfold on_end. cbn [fst snd]. destruct (exists_last_or l) as [->|(l' & x & ->)]; [reflexivity|].
  rewrite rev_app_distr. cbn [rev app snd]. rewrite rev_involutive, !app_length. reflexivity.
Qed.

Lemma on_end_end f h d : on_end f (on_end h d) = on_end (fun c => f (h c)) d.
Proof.
  destruct d as [c l]. unfold on_end. cbn [fst snd]. destruct (exists_last_or l) as [->|(l' & x & ->)]; [reflexivity|].
  rewrite rev_app_distr. cbn [rev app snd fst]. rewrite rev_involutive, rev_app_distr. cbn [rev app snd fst]. rewrite rev_involutive. reflexivity.
Qed.

Section Texts.
Variables (version today : bytes) (engines : colour -> engine).

Lemma name_called code e : player_name code e = called code e.
Proof. unfold player_name, called. destruct (short_description e) as [[|]|]; reflexivity. Qed.

Lemma called_utf8 code e : is_utf8 code -> maybe_utf8 (short_description e) -> is_utf8 (called code e).
Proof. intros A B. unfold called. destruct (short_description e) as [[|c r]|]; auto. Qed.

Lemma gtp_make_ok {X} (g : gtp_game X) : ru_size (ga_runner g) = size -> gtp_recordable version today engines g ->
  exists ps, gtp_make_sgf version today engines g w0 = (W ps, Ok tt) /\ shown (gtp_document version today engines g) ps.
Proof.
  intros ES [RC TX NM ID SC]. unfold gtp_make_sgf. cbv zeta. rewrite ES. change (g_root (new_sgf size w0)) with base.
  destruct (make_ok w0 size HS version today (ga_runner g) ES RC) as (p0 & E0 & S0); try (apply TX; cbn; tauto).
  rewrite E0. cbn [then_do]. rewrite !name_called.
  destruct (put_root w0 size HS _ _ (str "PB") PT_simpletext (VText (called (g_code_b (gb_gc (ga_backend g))) (engines Black))) S0) as (p1 & E1 & S1);
    [reflexivity|discriminate|discriminate|reflexivity|apply called_utf8; [apply TX; cbn; tauto|apply NM]|]. rewrite E1. cbn [then_do].
  destruct (put_root w0 size HS _ _ (str "PW") PT_simpletext (VText (called (g_code_w (gb_gc (ga_backend g))) (engines White))) S1) as (p2 & E2 & S2);
    [reflexivity|discriminate|discriminate|reflexivity|apply called_utf8; [apply TX; cbn; tauto|apply NM]|]. rewrite E2. cbn [then_do].
  assert (truthy (ga_id g) = nonempty (ga_id g)) as -> by (destruct (ga_id g) as [[|]|]; reflexivity).
  destruct (put_root_if w0 size HS _ _ (str "GN") PT_simpletext (option_map VText (nonempty (ga_id g))) S2) as (p3 & E3 & S3);
    [reflexivity|discriminate|discriminate|reflexivity| |].
  { intros v Ev. destruct (ga_id g) as [[|c r]|]; cbn in Ev; try discriminate. injection Ev as <-. apply ID. reflexivity. }
  rewrite E3. cbn [then_do].
  unfold gtp_document. cbv zeta. destruct (ga_result g) as [r|] eqn:ER; [|exists p3; split; [reflexivity|exact S3]].
  unfold on_last. change (g_root (new_sgf size w0)) with base. rewrite (last_of_shown w0 size _ _ S3).
  apply say_end; auto.
Qed.

Variables (cpu_text : pfloat -> bytes) (now : bytes).

Lemma notes_present {X} j (g : gtp_game X) : job_notes engines cpu_text now j (ga_result g) (has_moves g) =
  present (possible_notes engines cpu_text now j (ga_result g) (has_moves g)).
Proof.
  unfold job_notes, possible_notes, cpu_note, about_time. destruct (gj_event j), (gj_note j), (ga_result g) as [r|], (has_moves g);
    cbn [opt_list option_map app present]; try rewrite describe_line;
    try (destruct (gr_cpu_b r), (gr_cpu_w r)); cbn [opt_list option_map app present];
    repeat match goal with |- _ :: _ = _ :: _ => f_equal end;
    unfold player_note, about_player; destruct (long_description (engines Black)) as [[|]|], (long_description (engines White)) as [[|]|];
    rewrite ?app_nil_r; reflexivity.
Qed.

Lemma join_utf8 l : all_utf8 l -> is_utf8 (join [char_lf] l).
Proof.
  induction l as [|x r IH]; intros H; [apply ascii_utf8; reflexivity|]. destruct r as [|y r]; [apply H; left; reflexivity|].
  change (join [char_lf] (x :: y :: r)) with (x ++ [char_lf] ++ join [char_lf] (y :: r)).
  apply is_utf8_app; [apply H; left; reflexivity|]. apply is_utf8_app; [apply ascii_utf8; reflexivity|]. apply IH. intros s I. apply H. right. exact I.
Qed.

Lemma present_utf8 l : (forall o, In o l -> maybe_utf8 o) -> all_utf8 (present l).
Proof.
  induction l as [|[x|] r IH]; intros H s I; [destruct I|..]; cbn [present] in I.
  - destruct I as [<-|I]; [apply (H (Some x)); [left|]; reflexivity|]. apply IH; [|exact I]. intros o J. apply H. right. exact J.
  - apply IH; [|exact I]. intros o J. apply H. right. exact J.
Qed.

Ltac ascii := apply ascii_utf8; reflexivity.

Lemma notes_utf8 {X} j (g : gtp_game X) message : job_recordable version today engines cpu_text now j g message ->
  all_utf8 (present (possible_notes engines cpu_text now j (ga_result g) (has_moves g))).
Proof.
  intros [RG TX (_ & OE & ON) LG TM RE _]. apply present_utf8. intros o I s ->.
  assert (forall word p c, is_utf8 word -> is_utf8 (gp_code p) -> is_utf8 (about_player word p (engines c))) as AP.
  { intros word p c A B. unfold about_player. destruct (long_description (engines c)) as [[|x r]|] eqn:E;
      repeat (first [exact A|exact B|ascii|apply is_utf8_app]). apply (LG c). exact E. }
  assert (forall p t, is_utf8 (gp_code p) -> maybe_utf8 (about_time cpu_text p t)) as AT.
  { intros p [x|] A u E; [|discriminate]. unfold about_time in E. cbn [option_map] in E. assert (u = gp_code p ++ str " cpu time: " ++ cpu_text x ++ str "s") as -> by congruence.
    repeat (first [exact A|ascii|apply TM|apply is_utf8_app]). }
  assert (is_utf8 (gp_code (gj_b j)) /\ is_utf8 (gp_code (gj_w j)) /\ is_utf8 now /\ is_utf8 (gj_id j)) as (UB & UW & UN & UI)
    by (do 3 (split; [apply TX; cbn; tauto|]); apply TX; cbn; tauto).
  unfold possible_notes in I. cbn [In] in I. destruct I as [I|[I|[I|[I|[I|[I|[I|[I|[I|[]]]]]]]]]].
  - destruct (gj_event j) as [e|] eqn:E; [|discriminate]. assert (s = str "Event: " ++ e) as -> by (cbn [option_map] in I; congruence). apply is_utf8_app; [ascii|auto].
  - assert (s = str "Game id " ++ gj_id j) as -> by congruence. apply is_utf8_app; [ascii|auto].
  - assert (s = str "Date " ++ now) as -> by congruence. apply is_utf8_app; [ascii|auto].
  - destruct (has_moves g), (ga_result g) as [r|]; try discriminate. assert (s = str "Result " ++ result_line r) as -> by (cbn [option_map] in I; congruence).
    apply is_utf8_app; [ascii|auto].
  - auto.
  - destruct (ga_result g) as [r|]; [|discriminate]. eapply AT; [|exact I]. exact UB.
  - destruct (ga_result g) as [r|]; [|discriminate]. eapply AT; [|exact I]. exact UW.
  - assert (s = about_player (str "Black") (gj_b j) (engines Black)) as -> by congruence. apply AP; [ascii|exact UB].
  - assert (s = about_player (str "White") (gj_w j) (engines White)) as -> by congruence. apply AP; [ascii|exact UW].
Qed.

Lemma gtp_length {X} (g : gtp_game X) : List.length (snd (gtp_document version today engines g)) = List.length (ru_moves (ga_runner g)).
Proof.
  unfold gtp_document, the_game. cbv zeta. destruct (ga_result g), (ru_final (ga_runner g)) as [[c t]|]; cbn [on_root snd];
    rewrite ?on_end_length; cbn [on_root snd]; rewrite ?on_end_length; cbn [snd]; apply map_length.
Qed.

Lemma job_make_ok {X} (j : game_job) (g : gtp_game X) message : ru_size (ga_runner g) = size ->
  job_recordable version today engines cpu_text now j g message ->
  exists ps, job_make_sgf version today engines cpu_text now j g message w0 = (W ps, Ok tt) /\
    shown (job_document version today engines cpu_text now j g message) ps.
Proof.
  intros ES JR. pose proof (notes_utf8 j g message JR) as NU. destruct JR as [RG TX (OGN & OE & ON) LG TM RE (UM & UL)].
  unfold job_make_sgf. cbv zeta. rewrite ES. change (g_root (new_sgf size w0)) with base.
  destruct (gtp_make_ok g ES RG) as (p0 & E0 & S0). rewrite E0. cbn [then_do]. unfold on_last. change (g_root (new_sgf size w0)) with base.
  rewrite (last_of_shown w0 size _ _ S0). rewrite (gtp_length g).
  set (last := (base + List.length (ru_moves (ga_runner g)))%nat).
  destruct (put_root_if w0 size HS _ _ (str "GN") PT_simpletext (option_map VText (gj_name j)) S0) as (p1 & E1 & S1);
    [reflexivity|discriminate|discriminate|reflexivity| |].
  { intros v Ev. destruct (gj_name j) as [x|]; [|discriminate]. injection Ev as <-. apply OGN. reflexivity. }
  rewrite E1. cbn [then_do].
  destruct (put_root_if w0 size HS _ _ (str "EV") PT_simpletext (option_map VText (gj_event j)) S1) as (p2 & E2 & S2);
    [reflexivity|discriminate|discriminate|reflexivity| |].
  { intros v Ev. destruct (gj_event j) as [x|]; [|discriminate]. injection Ev as <-. apply OE. reflexivity. }
  rewrite E2. cbn [then_do].
  destruct (put_root_if w0 size HS _ _ (str "PB") PT_simpletext (if gp_name_from_gtp (gj_b j) then None else Some (VText (gp_code (gj_b j)))) S2) as (p3 & E3 & S3);
    [reflexivity|discriminate|discriminate|reflexivity| |].
  { intros v Ev. destruct (gp_name_from_gtp (gj_b j)); [discriminate|]. injection Ev as <-. apply TX. cbn. tauto. }
  rewrite E3. cbn [then_do].
  destruct (put_root_if w0 size HS _ _ (str "PW") PT_simpletext (if gp_name_from_gtp (gj_w j) then None else Some (VText (gp_code (gj_w j)))) S3) as (p4 & E4 & S4);
    [reflexivity|discriminate|discriminate|reflexivity| |].
  { intros v Ev. destruct (gp_name_from_gtp (gj_w j)); [discriminate|]. injection Ev as <-. apply TX. cbn. tauto. }
  rewrite E4. cbn [then_do].
  assert (negb (Nat.eqb base last) = has_moves g) as HM.
  { unfold last, has_moves. destruct (ru_moves (ga_runner g)) as [|x l]; cbn [List.length].
    - replace (base + 0)%nat with base by lia. rewrite Nat.eqb_refl. reflexivity.
    - apply negb_true_iff. apply Nat.eqb_neq. lia. }
  rewrite HM, notes_present.
  set (ns := present _) in *.
  assert (ns <> []) as NN by (unfold ns, possible_notes; destruct (gj_event j); cbn [option_map present]; discriminate).
  destruct (prepend_ok _ _ ns S4 NN (join_utf8 _ NU)) as (p5 & E5 & S5). rewrite E5. cbn [then_do].
  assert (forall d, List.length (snd (on_root (say_first (join [char_lf] ns)) (on_root
      (put_if (str "PW") PT_simpletext (if gp_name_from_gtp (gj_w j) then None else Some (VText (gp_code (gj_w j)))))
      (on_root (put_if (str "PB") PT_simpletext (if gp_name_from_gtp (gj_b j) then None else Some (VText (gp_code (gj_b j)))))
      (on_root (put_if (str "EV") PT_simpletext (option_map VText (gj_event j)))
      (on_root (put_if (str "GN") PT_simpletext (option_map VText (gj_name j))) d)))))) = List.length (snd d)) as LL by reflexivity.
  destruct (comment_opt_ok _ _ message S5 UM) as (p6 & E6 & S6). rewrite LL, gtp_length in E6. fold last in E6. rewrite E6. cbn [then_do].
  destruct (comment_opt_ok _ _ _ S6 UL) as (p7 & E7 & S7). rewrite on_end_length, LL, gtp_length in E7. fold last in E7.
  exists p7. split; [exact E7|]. unfold job_document. rewrite on_end_end in S7. rewrite lines_join. exact S7.
Qed.
End Texts.
End Record.
