(** Proofs about saving a game (C63): the theorems. *)
From Verif Require Import Base Bytes PyStr Dict BoardModel BoardSpec BoardProofs BoardMainProofs CommonModel SgfGrammarModel SgfGrammarSpec
  SgfTreeConvModel SgfGrammarProofs SgfTextProofs SgfPropsModel SgfPropsSpec SgfValueSpec SgfValueProofs SgfTypeErrorProofs
  SgfTreeModel SgfTreeSpec SgfTreeProofs SgfNodeProofs SgfGameProofs SgfTreeMainProofs SgfSaveProofs SgfMovesModel SgfMovesSpec SgfMovesProofs GameplayModel GameSgfModel GameSgfSpec
  SgfChainProofs GameSgfProofs GameSgfDocProofs GameSgfMainProofs GameSgfReadProofs GtpModel GtpStateModel GtpStateSpec GtpStateProofs GtpStateFinalProofs SaveModel SaveSpec SaveProofs
  SaveMapProofs SaveMainProofs SaveReadProofs SaveStateProofs.

Lemma saved_proof version today save st path args opts h hs : served st -> savable st -> is_utf8 version -> is_utf8 today ->
  Forall2 option_arg args opts -> (forall k, In k reserved -> ~ In k (names opts)) -> st_history st = h :: hs ->
  exists text,
    (save path = None -> handle_savesgf version today save st (path :: args) = ((st, GOk None), Some (path, text))) /\
    (forall m, save path = Some m -> handle_savesgf version today save st (path :: args) = ((st, GError (str "error writing file: " ++ m)), None)) /\
    forall w0, reachable_world w0 -> exists w1 g,
      load_string w0 text UTF_8 false = (w1, Ok tt) /\
      shows_state version today st opts (h_colour h) w1 (List.length (w_games w0)) g /\ reachable_world w1 /\
      g_pres g = new_presenter (st_size st) UTF_8 /\ undisturbed w0 w1.
Proof.
  intros SV SB UV UT OA OF EH. pose proof (C37_replay_proof _ SV) as CS.
  destruct (saved_loads version today st args opts (h_colour h) (h_move h) (h_comments h) (map (fun h => (h_colour h, h_move h, h_comments h)) hs) CS SB UV UT OA OF) as (text & E & L).
  { unfold history_moves. rewrite EH. reflexivity. }
  exists text. unfold handle_savesgf. rewrite E. split; [intros ->; reflexivity|]. split; [intros m ->; reflexivity|exact L].
Qed.

Lemma saved_says version today save st path args opts h hs text : served st -> savable st -> is_utf8 version -> is_utf8 today ->
  Forall2 option_arg args opts ->
  (forall k, In k (reserved ++ [str "B"; str "W"; str "KM"; str "HA"]) -> ~ In k (names opts)) -> st_history st = h :: hs ->
  handle_savesgf version today save st (path :: args) = ((st, GOk None), Some (path, text)) ->
  file_says text UTF_8 (st_size st) (komi_read (st_komi st)) (st_handicap st) (view (st_base st)) (moves_made st).
Proof.
  intros SV SB UV UT OA OF EH E.
  destruct (saved_proof version today save st path args opts h hs SV SB UV UT OA) as (text' & A & B & L); auto.
  { intros k I. apply OF. apply in_or_app. auto. }
  assert (text' = text) as ->.
  { destruct (save path) as [m|]; [rewrite (B m eq_refl) in E; discriminate|]. rewrite (A eq_refl) in E. injection E as ->. reflexivity. }
  destruct (L empty_world rw_empty) as (w1 & g & Lo & SS & R & P & _).
  eapply says_proof; eauto.
  - destruct (served_sane _ SV) as (H & _). split; intros X; destruct (H _ X); congruence.
  - destruct SS as (nodes & ab & aw & G & _). exact G.
  - intros k I. apply OF. apply in_or_app. simpl in *. tauto.
Qed.

Lemma file_says_fun text e s k h p ms s' k' h' p' ms' :
  file_says text e s k h p ms -> file_says text e s' k' h' p' ms' -> s' = s /\ k' = k /\ h' = h /\ ms' = ms /\ same_on s p p'.
Proof.
  intros (w & g & t & L & G & T & <- & K & H & ab & aw & ae & RD & SO) (w' & g' & t' & L' & G' & T' & <- & K' & H' & ab' & aw' & ae' & RD' & SO').
  assert (w' = w) by congruence. subst w'. assert (g' = g) by congruence. subst g'. assert (t' = t) by (eapply tree_of_fun; eauto). subst t'.
  destruct (readable_fun _ _ _ _ _ _ _ _ _ _ _ RD RD') as (<- & <- & <- & <-).
  split; [reflexivity|]. split; [|split; [congruence|split; [reflexivity|]]].
  - assert (node_at w (g_root g) <> None) as NN by (inversion T; congruence).
    destruct K as [K|(K & ->)], K' as [K'|(K' & ->)].
    + rewrite K in K'. injection K' as A B. destruct k, k'. cbn in *. congruence.
    + rewrite (has_property_get _ _ _ K' NN) in K. discriminate.
    + rewrite (has_property_get _ _ _ K NN) in K'. discriminate.
    + reflexivity.
  - intros q O. rewrite (SO q O), (SO' q O). reflexivity.
Qed.

Lemma komi_read_bounds (k : Z * nat) : (let (m, d) := k in - 625 * 10 ^ Z.of_nat d <= m <= 625 * 10 ^ Z.of_nat d) -> forall k', clipped (komi_read k) k' -> k' = komi_read k.
Proof.
  destruct k as [m d]. unfold komi_read. cbn [fst snd]. intros B k'. destruct (_ <? _); intros (C & _); apply C; lia.
Qed.

Lemma load_back_proof env st st2 path text :
  served st -> served st2 -> In (st_size st) (st_sizes st2) ->
  file_says text UTF_8 (st_size st) (komi_read (st_komi st)) (st_handicap st) (view (st_base st)) (moves_made st) ->
  env_files env path = Some (text, UTF_8) ->
  exists st2', handle env Loadsgf st2 [path] = (st2', GOk None) /\ served st2' /\
    st_size st2' = st_size st /\ moves_made st2' = moves_made st /\ st_handicap st2' = st_handicap st /\ st_komi st2' = komi_read (st_komi st) /\
    same_on (st_size st) (view (st_base st2')) (view (st_base st)) /\ same_on (st_size st) (view (st_board st2')) (view (st_board st)).
Proof.
  intros SV SV2 IN FS EF. pose proof (C37_replay_proof _ SV) as (_ & _ & _ & _ & RP).
  destruct (C37_succeed_proof env st2 SV2) as (_ & _ & _ & _ & _ & _ & LD).
  destruct (LD path [] text UTF_8 _ _ _ _ _ (List.length (moves_made st)) (view (st_board st)) EF FS IN eq_refl) as (st2' & E).
  { rewrite firstn_all. exact RP. }
  exists st2'. split; [exact E|]. assert (served st2') as SV' by (eapply sv_command; [exact SV2|exact E|auto]). split; [exact SV'|].
  pose proof (C37_effect_proof _ _ _ _ _ _ SV2 E) as (path' & rest & text' & e & size & komi & hcp & setup & ms & k & b & EA & EF' & FS' & _ & CL & (n & EN & RB & SO & EI) & _).
  injection EA as <- <-. assert (Some (text', e) = Some (text, UTF_8)) as EQ by congruence. injection EQ as -> ->.
  destruct (file_says_fun _ _ _ _ _ _ _ _ _ _ _ _ FS FS') as (-> & -> & -> & -> & SP). subst n. rewrite firstn_all in EI.
  assert (st_size st2' = st_size st) as ES by (exact (f_equal i_size EI)).
  assert (st_base st2' = b) as EB by (exact (f_equal i_base EI)).
  assert (moves_made st2' = moves_made st) as EM.
  { pose proof (f_equal i_history EI) as EH. cbn [i_history info_of] in EH. unfold moves_made at 1. rewrite EH, map_map. cbn [h_colour h_move].
    rewrite <- (map_id (moves_made st)) at 2. apply map_ext. intros [a c]. reflexivity. }
  assert (same_on (st_size st) (view (st_base st2')) (view (st_base st))) as SB.
  { rewrite EB. intros q O. rewrite (SO q O), (SP q O). reflexivity. }
  split; [exact ES|]. split; [exact EM|]. split; [exact (f_equal i_handicap EI)|]. split.
  { pose proof (f_equal i_komi EI) as EK. cbn [i_komi info_of] in EK. rewrite EK. apply komi_read_bounds; [|exact CL]. exact (proj2 (served_sane _ SV)). }
  split; [exact SB|].
  pose proof (C37_replay_proof _ SV') as (_ & _ & _ & _ & RP'). rewrite ES, EM in RP'.
  eapply replays_fun; [exact RP'|]. eapply replays_ext; [exact RP| |intros q O; reflexivity]. intros q O. symmetry. apply SB. exact O.
Qed.

Lemma options_bad size args opts bad more : Forall2 option_arg args opts -> ~ In (str "SZ") (names opts) ->
  (forall name v, bad = name ++ str "=" ++ v -> name = [] \/ ~ Forall (fun c => is_letter c = true) name) ->
  forall m, exists w', set_options (world_of empty_world (new_presenter size UTF_8) [m]) 0 (args ++ bad :: more) = (w', report_bad_arguments).
Proof.
  intros OA NS B. assert (read_option bad = None) as RB.
  { unfold read_option. destruct (split_equals bad) as [[n v]|] eqn:E; [|reflexivity].
    assert (bad = n ++ str "=" ++ v) as EQ.
    { clear -E. revert n v E. induction bad as [|c r IH]; intros n v E; cbn [split_equals] in E; [discriminate|].
      destruct (ceqb_spec c "="%char) as [->|].
      - injection E as <- <-. reflexivity.
      - destruct (split_equals r) as [[a b]|]; [|discriminate]. injection E as <- <-. cbn [app]. f_equal. apply IH. reflexivity. }
    destruct (B n v EQ) as [->|N]; [reflexivity|]. destruct (is_alpha n) eqn:A; [|reflexivity].
    exfalso. apply N. unfold is_alpha in A. destruct n; [discriminate|]. apply Forall_forall. apply forallb_forall. exact A. }
  induction OA as [|arg [k v] args opts A F IH]; intros m; cbn [app set_options].
  - rewrite RB. eexists. reflexivity.
  - rewrite (option_read _ _ _ A).
    destruct (set_raw _ 0 k (escape_text v)) as [w1 r] eqn:E.
    assert (r = Ok tt /\ exists m1, w1 = world_of empty_world (new_presenter size UTF_8) [m1]) as (-> & m1 & ->).
    { unfold set_raw, on_node in E. change 0%nat with (List.length (w_nodes empty_world) + 0)%nat in E.
      rewrite (world_node empty_world (new_presenter size UTF_8) [m] 0) in E by (cbn; lia). rewrite world_pres, (option_name _ _ _ A) in E.
      assert (is_valid_property_value (escape_text v) = true) as V by (apply good_value_valid; apply C13_valid_proof). rewrite V in E.
      cbn [negb] in E. unfold set_raw_list_core in E. destruct (bytes_eqb_spec k (str "SZ")) as [X|_].
      - exfalso. apply NS. left. exact X.
      - cbn [andb] in E. rewrite (world_put empty_world _ [m] 0 _ (le_n _)) in E. injection E as <- <-. eauto. }
    apply IH. intros I. apply NS. right. exact I.
Qed.

Lemma bad_argument_proof version today save st path args opts bad more : served st -> savable st -> is_utf8 version -> is_utf8 today ->
  Forall2 option_arg args opts -> ~ In (str "SZ") (names opts) ->
  (forall name v, bad = name ++ str "=" ++ v -> name = [] \/ ~ Forall (fun c => is_letter c = true) name) ->
  handle_savesgf version today save st (path :: args ++ bad :: more) = ((st, GError (str "invalid arguments")), None).
Proof.
  intros SV SB UV UT OA NS B. pose proof (C37_replay_proof _ SV) as CS.
  unfold handle_savesgf, saved_text. cbv zeta. change (g_root (new_sgf (st_size st) empty_world)) with 0%nat.
  match goal with |- context [go_do (set_opt _ _ _ _) ?f] => destruct (step5 version today st CS SB UV UT f go_do) as (m5 & R5 & M5 & E5); [reflexivity|] end.
  rewrite E5. clear E5.
  destruct (options_bad (st_size st) args opts bad more OA NS B m5) as (w' & E'). rewrite E'. reflexivity.
Qed.

Lemma no_moves_proof version today save st path args opts : served st -> savable st -> is_utf8 version -> is_utf8 today ->
  Forall2 option_arg args opts -> (forall k, In k reserved -> ~ In k (names opts)) -> st_history st = [] ->
  handle_savesgf version today save st (path :: args) = ((st, uncaught IndexError), None).
Proof.
  intros SV SB UV UT OA OF EH. pose proof (C37_replay_proof _ SV) as CS. pose proof (size_ok st CS SB) as HS.
  unfold handle_savesgf, saved_text. cbv zeta. change (g_root (new_sgf (st_size st) empty_world)) with 0%nat.
  match goal with |- context [go_do (set_opt _ _ _ _) ?f] => destruct (step5 version today st CS SB UV UT f go_do) as (m5 & R5 & M5 & E5); [reflexivity|] end.
  rewrite E5. clear E5.
  destruct (options_ok (st_size st) args opts OA (OF _ ltac:(simpl; tauto)) _ [] m5 R5 M5) as (m6 & E6 & R6 & M6).
  rewrite E6. cbn [gbind app] in *.
  destruct CS as (_ & _ & _ & RB & _).
  destruct (stones_ok _ _ Black RB) as (_ & OB). destruct (stones_ok _ _ White RB) as (_ & OW).
  unfold set_initial_position. change (g_root (new_sgf (st_size st) empty_world)) with 0%nat.
  destruct (setup_ok (st_size st) HS _ opts m6 (stones_of Black (st_base st)) (stones_of White (st_base st)) R6 M6) as (m7 & E7 & R7 & M7); auto.
  { intros k I. split; [apply not_given; apply OF; simpl in *; tauto|]. unfold root5. destruct (st_handicap st); destruct I as [<-|[<-|[<-|[]]]]; reflexivity. }
  rewrite E7. cbn [go_do]. rewrite EH. cbn [map record_game go_do done]. unfold indicate_first_player.
  change (g_root (new_sgf (st_size st) empty_world)) with 0%nat.
  assert (node_at (world_of empty_world (new_presenter (st_size st) UTF_8) [m7]) 0 = Some (node_of empty_world [m7] 0)) as -> by (change 0%nat with (List.length (w_nodes empty_world) + 0)%nat at 1; apply world_node; cbn; lia).
  reflexivity.
Qed.
