(** Proofs about the records of GTP games (C60, C61): the main statements. *)
From Coq Require Import QArith.
From Verif Require Import Base Bytes PyStr Dict BoardModel BoardSpec CommonModel SgfGrammarModel SgfGrammarSpec SgfTreeConvModel
  SgfPropsModel SgfPropsSpec SgfPropsProofs SgfValueSpec SgfValueProofs SgfTypeErrorProofs SgfTreeModel SgfTreeSpec SgfTreeProofs
  SgfNodeProofs SgfGameProofs SgfTreeMainProofs SgfMovesModel GameplayModel GameplaySpec GameplayRunProofs
  ControllerModel GtpGameModel EngineModel EngineSpec EngineProofs EngineDialogueProofs GameSgfModel GameSgfSpec SgfChainProofs GameSgfProofs GameSgfDocProofs
  GameSgfReadProofs GameSgfMainProofs JobSgfModel JobSgfSpec JobSgfProofs RunInvProofs.
Open Scope Z_scope.

(** ** Reachable worlds *)

Lemma keeps_prepend w n l : reachable_world w -> (n < List.length (w_nodes w))%nat -> keeps w (prepend_notes w n l).
Proof.
  intros R L. unfold prepend_notes. destruct (has_property w n (str "C")); [|apply keeps_set; auto].
  destruct (get_prop w n (str "C")) as [[]|]; try (apply keeps_raise; auto). apply keeps_set; auto.
Qed.
Lemma keeps_comment_opt w n o : reachable_world w -> (n < List.length (w_nodes w))%nat -> keeps w (comment_opt w n o).
Proof. intros R L. destruct o; [apply keeps_comment; auto|apply keeps_done; auto]. Qed.

Lemma shown_root w0 size d ps : shown size d ps -> (List.length (w_nodes w0) < List.length (w_nodes (world_of w0 (new_presenter size UTF_8) ps)))%nat.
Proof. intros S. rewrite world_length. apply shown_head in S as (m & rest & -> & _). cbn. lia. Qed.

Section Record.
Variables (version today : bytes) (engines : colour -> engine) (cpu_text : pfloat -> bytes) (now : bytes).

Lemma gtp_reachable {X} (g : gtp_game X) w : gtp_recordable version today engines g -> reachable_world w ->
  reachable_world (fst (gtp_make_sgf version today engines g w)).
Proof.
  intros RG R. pose proof RG as [RC TX NM ID SC]. unfold gtp_make_sgf. cbv zeta.
  pose proof (make_reachable version today (ga_runner g) w R) as R1.
  destruct (make_ok w (ru_size (ga_runner g)) (rc_size _ RC) version today (ga_runner g) eq_refl RC) as (p0 & E0 & S0); try (apply TX; cbn; tauto).
  rewrite E0 in *. cbn [then_do fst] in *. pose proof (shown_root w _ _ _ S0) as L1.
  change (g_root (new_sgf (ru_size (ga_runner g)) w)) with (List.length (w_nodes w)).
  set (w1 := world_of _ _ p0) in *.
  refine (proj1 (keeps_then w1 _ _ _ _)); [apply keeps_set; auto|]. intros w2 R2 L2.
  apply keeps_then; [apply keeps_set; auto; lia|]. intros w3 R3 L3.
  apply keeps_then; [apply keeps_set_opt; auto; lia|]. intros w4 R4 L4.
  destruct (ga_result g); [|apply keeps_done; auto]. apply keeps_on_last; auto. intros n L5. apply keeps_comment; auto.
Qed.

Lemma job_keeps {X} j (g : gtp_game X) message w : job_recordable version today engines cpu_text now j g message -> reachable_world w ->
  reachable_world (fst (job_make_sgf version today engines cpu_text now j g message w)).
Proof.
  intros JR R. unfold job_make_sgf. cbv zeta. pose proof (jr_game _ _ _ _ _ _ _ _ JR) as RG.
  pose proof (gtp_reachable g w RG R) as R1.
  destruct (gtp_make_ok w (ru_size (ga_runner g)) (rc_size _ (gr_runner _ _ _ _ RG)) version today engines g eq_refl RG) as (p0 & E0 & S0).
  rewrite E0 in *. cbn [then_do fst] in *. pose proof (shown_root w _ _ _ S0) as L1.
  change (g_root (new_sgf (ru_size (ga_runner g)) w)) with (List.length (w_nodes w)).
  set (w1 := world_of _ _ p0) in *.
  refine (proj1 (keeps_on_last w1 _ _ R1 _)). intros last LL.
  apply keeps_then; [apply keeps_set_opt; auto; lia|]. intros w2 R2 L2.
  apply keeps_then; [apply keeps_set_opt; auto; lia|]. intros w3 R3 L3.
  apply keeps_then; [apply keeps_set_opt; auto; lia|]. intros w4 R4 L4.
  apply keeps_then; [apply keeps_set_opt; auto; lia|]. intros w5 R5 L5.
  apply keeps_then; [apply keeps_prepend; auto; lia|]. intros w6 R6 L6.
  apply keeps_then; [apply keeps_comment_opt; auto; lia|]. intros w7 R7 L7.
  apply keeps_comment_opt; auto; lia.
Qed.

(** ** The records *)

Lemma gtp_record_proof {X} (g : gtp_game X) w : gtp_recordable version today engines g -> reachable_world w ->
  exists w' nodes, gtp_make_sgf version today engines g w = (w', Ok tt) /\ reachable_world w' /\ undisturbed w w' /\
    displays (gtp_document version today engines g) w' (List.length (w_games w)) (new_sgf (ru_size (ga_runner g)) w) nodes.
Proof.
  intros RG R. destruct (gtp_make_ok w (ru_size (ga_runner g)) (rc_size _ (gr_runner _ _ _ _ RG)) version today engines g eq_refl RG) as (ps & E & S).
  pose proof (gtp_reachable g w RG R) as R'. rewrite E in R'. cbn [fst] in R'.
  destruct (shown_displays _ _ _ _ R' S) as (nodes & D). eexists. exists nodes. split; [exact E|]. split; [exact R'|].
  split; [apply world_undisturbed|exact D].
Qed.

Lemma job_record_proof {X} j (g : gtp_game X) message w : job_recordable version today engines cpu_text now j g message -> reachable_world w ->
  exists w' nodes, job_make_sgf version today engines cpu_text now j g message w = (w', Ok tt) /\ reachable_world w' /\ undisturbed w w' /\
    displays (job_document version today engines cpu_text now j g message) w' (List.length (w_games w)) (new_sgf (ru_size (ga_runner g)) w) nodes.
Proof.
  intros JR R. pose proof (rc_size _ (gr_runner _ _ _ _ (jr_game _ _ _ _ _ _ _ _ JR))) as HS.
  destruct (job_make_ok w (ru_size (ga_runner g)) HS version today engines cpu_text now j g message eq_refl JR) as (ps & E & S).
  pose proof (job_keeps j g message w JR R) as R'. rewrite E in R'. cbn [fst] in R'.
  destruct (shown_displays _ _ _ _ R' S) as (nodes & D). eexists. exists nodes. split; [exact E|]. split; [exact R'|].
  split; [apply world_undisturbed|exact D].
Qed.

Lemma void_proof {X} j (g : gtp_game X) message w : job_recordable version today engines cpu_text now j g (Some message) -> reachable_world w ->
  exists w' nodes, then_do (job_make_sgf version today engines cpu_text now j g (Some message) w)
      (fun w1 => set_prop w1 (g_root (new_sgf (ru_size (ga_runner g)) w)) (str "RE") (VText (str "Void"))) = (w', Ok tt) /\
    reachable_world w' /\ undisturbed w w' /\
    displays (void_document version today engines cpu_text now j g message) w' (List.length (w_games w)) (new_sgf (ru_size (ga_runner g)) w) nodes.
Proof.
  intros JR R. pose proof (rc_size _ (gr_runner _ _ _ _ (jr_game _ _ _ _ _ _ _ _ JR))) as HS.
  destruct (job_make_ok w (ru_size (ga_runner g)) HS version today engines cpu_text now j g (Some message) eq_refl JR) as (ps & E & S).
  pose proof (job_keeps j g (Some message) w JR R) as R1. rewrite E in R1 |- *. cbn [fst then_do] in *.
  change (g_root (new_sgf (ru_size (ga_runner g)) w)) with (List.length (w_nodes w)).
  destruct (put_root w (ru_size (ga_runner g)) HS _ _ (str "RE") PT_simpletext (VText (str "Void")) S) as (p2 & E2 & S2);
    [reflexivity|discriminate|discriminate|reflexivity|apply ascii_utf8; reflexivity|].
  pose proof (shown_root w _ _ _ S) as L.
  pose proof (proj1 (keeps_set _ (List.length (w_nodes w)) (str "RE") (VText (str "Void")) R1 L)) as R2. rewrite E2 in R2. cbn [fst] in R2.
  destruct (shown_displays _ _ _ _ R2 S2) as (nodes & D). eexists. exists nodes. split; [exact E2|]. split; [exact R2|].
  split; [apply world_undisturbed|exact D].
Qed.

(** ** Files *)

Definition root_props (d d' : document) : Prop := map ct_props (snd d') = map ct_props (snd d).

Lemma on_end_f (f : content -> content) d : (forall c, ct_props (f c) = ct_props c) ->
  ct_props (fst (on_end f d)) = ct_props (fst d) /\ map ct_props (snd (on_end f d)) = map ct_props (snd d).
Proof.
  intros H. destruct d as [c l]. unfold on_end. cbn [fst snd]. destruct (exists_last_or l) as [->|(l' & x & ->)]; [split; [apply H|reflexivity]|].
  rewrite rev_app_distr. cbn [rev app fst snd]. split; [reflexivity|]. rewrite rev_involutive, !map_app. cbn. rewrite H. reflexivity.
Qed.

Lemma dget_put k t v c k' : dget k' (ct_props (put k t v c)) = if bytes_eqb k' k then Some (t, v) else dget k' (ct_props c).
Proof. reflexivity. Qed.
Lemma dget_put_if k t o c k' : k' <> k -> dget k' (ct_props (put_if k t o c)) = dget k' (ct_props c).
Proof. intros N. destruct o as [v|]; [|reflexivity]. cbn [put_if]. rewrite dget_put. destruct (bytes_eqb_spec k' k); [congruence|reflexivity]. Qed.

Lemma gtp_props {X} (g : gtp_game X) :
  (forall k, k <> str "PB" -> k <> str "PW" -> k <> str "GN" ->
     dget k (ct_props (fst (gtp_document version today engines g))) = dget k (ct_props (the_root version today (ga_runner g)))) /\
  dget (str "PB") (ct_props (fst (gtp_document version today engines g))) = Some (PT_simpletext, VText (called (g_code_b (gb_gc (ga_backend g))) (engines Black))) /\
  dget (str "PW") (ct_props (fst (gtp_document version today engines g))) = Some (PT_simpletext, VText (called (g_code_w (gb_gc (ga_backend g))) (engines White))) /\
  map ct_props (snd (gtp_document version today engines g)) = map ct_props (map the_move (ru_moves (ga_runner g))).
Proof.
  destruct (game_props version today (ga_runner g)) as (A & B). unfold gtp_document. cbv zeta.
  set (d := on_root _ (the_game version today (ga_runner g))).
  assert (forall d', (ga_result g = None /\ d' = d) \/ (exists s, d' = on_end (say s) d) -> ct_props (fst d') = ct_props (fst d) /\ map ct_props (snd d') = map ct_props (snd d)) as H.
  { intros d' [(_ & ->)|(s & ->)]; [auto|]. apply on_end_f. reflexivity. }
  specialize (H (match ga_result g with None => d | Some r => on_end (say (describe_scoring r (game_scores g))) d end)).
  destruct H as (H1 & H2); [destruct (ga_result g); eauto|]. rewrite H1, H2. unfold d. cbn [on_root fst snd].
  split; [|split; [|split; [|exact B]]].
  - intros k N1 N2 N3. rewrite dget_put_if by exact N3. rewrite !dget_put. destruct (bytes_eqb_spec k (str "PW")); [congruence|].
    destruct (bytes_eqb_spec k (str "PB")); [congruence|]. apply A.
  - rewrite dget_put_if by discriminate. reflexivity.
  - rewrite dget_put_if by discriminate. reflexivity.
Qed.

Lemma job_props {X} j (g : gtp_game X) message :
  (forall k, k <> str "PB" -> k <> str "PW" -> k <> str "GN" -> k <> str "EV" ->
     dget k (ct_props (fst (job_document version today engines cpu_text now j g message))) = dget k (ct_props (the_root version today (ga_runner g)))) /\
  dget (str "PB") (ct_props (fst (job_document version today engines cpu_text now j g message))) =
    Some (PT_simpletext, VText (if gp_name_from_gtp (gj_b j) then called (g_code_b (gb_gc (ga_backend g))) (engines Black) else gp_code (gj_b j))) /\
  dget (str "PW") (ct_props (fst (job_document version today engines cpu_text now j g message))) =
    Some (PT_simpletext, VText (if gp_name_from_gtp (gj_w j) then called (g_code_w (gb_gc (ga_backend g))) (engines White) else gp_code (gj_w j))) /\
  map ct_props (snd (job_document version today engines cpu_text now j g message)) = map ct_props (map the_move (ru_moves (ga_runner g))).
Proof.
  destruct (gtp_props g) as (A & AB & AW & B). unfold job_document.
  match goal with |- context [on_end ?f ?d] => destruct (on_end_f f d) as (H1 & H2) end.
  { intros c. destruct message, (describe_late_errors _); reflexivity. }
  rewrite H1, H2. cbn [on_root fst snd say_first ct_props].
  split; [|split; [|split; [|exact B]]].
  - intros k N1 N2 N3 N4. rewrite !dget_put_if by assumption. apply A; assumption.
  - rewrite dget_put_if by discriminate. destruct (gp_name_from_gtp (gj_b j)); [|reflexivity]. cbn [put_if]. rewrite !dget_put_if by discriminate. exact AB.
  - destruct (gp_name_from_gtp (gj_w j)); [|reflexivity]. cbn [put_if]. rewrite !dget_put_if by discriminate. exact AW.
Qed.

Lemma plays_from d (r : runner) :
  (forall k, In k [str "AB"; str "AW"; str "AE"; str "B"; str "W"] -> dget k (ct_props (fst d)) = dget k (ct_props (the_root version today r))) ->
  map ct_props (snd d) = map ct_props (map the_move (ru_moves r)) -> plays d (stones_list (ru_stones r)) (map fst (ru_moves r)).
Proof.
  intros A B. destruct (game_plays version today r) as (P1 & P2 & P3). destruct (game_props version today r) as (G1 & G2).
  rewrite G1 in P1. split; [rewrite A by (cbn; tauto); exact P1|]. split.
  - intros k I. rewrite A by (cbn in *; tauto). rewrite <- G1. apply P2. exact I.
  - rewrite <- G2 in B. clear -B P3. revert B P3. generalize (snd d). generalize (map fst (ru_moves r)). generalize (snd (the_game version today r)).
    induction l as [|c l IH]; intros ms l' B P; destruct l' as [|c' l']; try discriminate; inversion P; subst; [constructor|].
    injection B as B1 B2. constructor; [|apply IH; assumption]. unfold has_no in *. rewrite B1. assumption.
Qed.

Lemma named_from d (r : runner) : dget [] (ct_props (fst d)) = None -> map ct_props (snd d) = map ct_props (map the_move (ru_moves r)) ->
  Forall (fun c => dget [] (ct_props c) = None) (fst d :: snd d).
Proof.
  intros A B. constructor; [exact A|]. rewrite Forall_forall. intros c I. apply (in_map ct_props) in I. rewrite B, map_map in I.
  apply in_map_iff in I as ([[c' m] cm] & <- & _). cbn. destruct c'; reflexivity.
Qed.

Lemma root_unnamed r : dget [] (ct_props (the_root version today r)) = None.
Proof. apply root_key. cbn. tauto. Qed.

Lemma job_plays {X} j (g : gtp_game X) message :
  plays (job_document version today engines cpu_text now j g message) (stones_list (ru_stones (ga_runner g))) (moves_only (ru_moves (ga_runner g))).
Proof.
  destruct (job_props j g message) as (A & _ & _ & B). apply plays_from; [|exact B]. intros k I. apply A; cbn in I; intuition; subst; discriminate.
Qed.
Lemma void_plays {X} j (g : gtp_game X) message :
  plays (void_document version today engines cpu_text now j g message) (stones_list (ru_stones (ga_runner g))) (moves_only (ru_moves (ga_runner g))).
Proof.
  destruct (job_props j g (Some message)) as (A & _ & _ & B). apply plays_from; [|exact B]. intros k I. unfold void_document. cbn [on_root fst]. rewrite dget_put.
  destruct (bytes_eqb_spec k (str "RE")) as [->|]; [cbn in I; intuition discriminate|]. apply A; cbn in I; intuition; subst; discriminate.
Qed.

Lemma finished_proof {X} j (g : gtp_game X) w dir file : job_recordable version today engines cpu_text now j g None -> reachable_world w ->
  gj_dirname j = Some dir -> gj_filename j = Some file ->
  exists w' text, record_finished version today engines cpu_text now j g w = (w', Ok (Some (os_join dir file, text))) /\
    reachable_world w' /\ undisturbed w w' /\
    forall w0, reachable_world w0 -> exists w1 g' nodes, load_string w0 text UTF_8 false = (w1, Ok tt) /\
      g_size g' = ru_size (ga_runner g) /\ undisturbed w0 w1 /\
      reachable_world w1 /\ g_pres g' = new_presenter (g_size g') UTF_8 /\
      displays (job_document version today engines cpu_text now j g None) w1 (List.length (w_games w0)) g' nodes.
Proof.
  intros JR R Ed Ef. destruct (job_record_proof j g None w JR R) as (w' & nodes & E & R' & U & D).
  destruct (saved_proof _ _ _ _ _ (Some 79) R' D (new_sgf_pres _ _)) as (out & S & L).
  { destruct (job_props j g None) as (A & _ & _ & B). eapply named_from; [|exact B]. rewrite A by discriminate. apply root_unnamed. }
  exists w', out. unfold record_finished. rewrite Ed, Ef, E. cbn [then_write]. unfold write_sgf. rewrite S.
  split; [reflexivity|]. split; [exact R'|]. split; [exact U|]. intros w0 R0. destruct (L w0 R0) as (w1 & g' & nodes' & A & B & C & V & R1 & P1).
  exists w1, g', nodes'. repeat (split; [assumption|]). exact B.
Qed.

Lemma void_file_proof {X} j (g : gtp_game X) message w dir file : job_recordable version today engines cpu_text now j g (Some message) -> reachable_world w ->
  ru_moves (ga_runner g) <> [] -> gj_void_dirname j = Some dir -> gj_filename j = Some file ->
  exists w' text, record_void version today engines cpu_text now j g message w = (w', Ok (Some (os_join dir file, text))) /\
    reachable_world w' /\ undisturbed w w' /\
    forall w0, reachable_world w0 -> exists w1 g' nodes, load_string w0 text UTF_8 false = (w1, Ok tt) /\
      g_size g' = ru_size (ga_runner g) /\ undisturbed w0 w1 /\
      reachable_world w1 /\ g_pres g' = new_presenter (g_size g') UTF_8 /\
      displays (void_document version today engines cpu_text now j g message) w1 (List.length (w_games w0)) g' nodes.
Proof.
  intros JR R NE Ed Ef. destruct (void_proof j g message w JR R) as (w' & nodes & E & R' & U & D).
  destruct (saved_proof _ _ _ _ _ (Some 79) R' D (new_sgf_pres _ _)) as (out & S & L).
  { destruct (job_props j g (Some message)) as (A & _ & _ & B). eapply named_from; [|exact B]. unfold void_document. cbn [on_root fst]. rewrite dget_put.
    change (bytes_eqb [] (str "RE")) with false. cbn iota. rewrite A by discriminate. apply root_unnamed. }
  exists w', out. unfold record_void. destruct (ru_moves (ga_runner g)) as [|x l]; [congruence|]. rewrite Ed, Ef. cbv zeta. rewrite E. cbn [then_write]. unfold write_sgf. rewrite S.
  split; [reflexivity|]. split; [exact R'|]. split; [exact U|]. intros w0 R0. destruct (L w0 R0) as (w1 & g' & nodes' & A & B & C & V & R1 & P1).
  exists w1, g', nodes'. repeat (split; [assumption|]). exact B.
Qed.
End Record.
