(** Proofs about saving a game (C63): what is written and how it is read. *)
From Verif Require Import Base Bytes PyStr Dict BoardModel BoardSpec BoardProofs BoardMainProofs CommonModel SgfGrammarModel SgfGrammarSpec
  SgfTreeConvModel SgfGrammarProofs SgfTextProofs SgfPropsModel SgfPropsSpec SgfValueSpec SgfValueProofs SgfTypeErrorProofs
  SgfTreeModel SgfTreeSpec SgfTreeProofs SgfNodeProofs SgfGameProofs SgfTreeMainProofs SgfSaveProofs SgfMovesModel SgfMovesSpec SgfMovesProofs GameplayModel GameSgfModel GameSgfSpec
  SgfChainProofs GameSgfProofs GameSgfDocProofs GameSgfMainProofs GameSgfReadProofs GtpModel GtpStateModel GtpStateSpec GtpStateFinalProofs SaveModel SaveSpec SaveProofs
  SaveMapProofs.

Notation reserved := [str "SZ"; str "CA"; str "AB"; str "AW"; str "AE"; str "PL"].

Lemma stones_ok s b c : reachable s b -> stones_are b c (stones_of c b) /\ Forall (on_board s) (stones_of c b).
Proof.
  intros R. destruct (reachable_good _ _ R) as [(W & L & F) Sd]. destruct (list_occupied_correct b W) as [ND LO]. split; [split|].
  - unfold stones_of. revert ND. generalize (list_occupied_points b). intros l. induction l as [|[d p] l IH]; intros N; [constructor|].
    inversion N as [|? ? N1 N2]. subst. cbn [flat_map fst snd]. destruct (colour_eqb_spec d c) as [->|NE]; [|exact (IH N2)].
    cbn [app]. constructor; [|exact (IH N2)]. intros I. apply N1. apply in_flat_map in I as ([d q] & I & J). cbn [fst snd] in J.
    destruct (colour_eqb_spec d c) as [->|]; [|contradiction]. destruct J as [<-|[]]. exact I.
  - intros p. rewrite stones_of_In, LO. reflexivity.
  - apply Forall_forall. intros p H. apply stones_of_In, LO in H. rewrite Sd in H. apply H.
Qed.

Lemma moves_on_board s p l p' : replays s p l p' -> Forall (fun cm => move_on_board s (snd cm)) l.
Proof.
  induction 1; constructor; auto; cbn [snd].
  - intros q E. discriminate.
  - intros q' E. injection E as <-. assumption.
Qed.

Lemma Forall2_cons_left {A B} (P : A -> B -> Prop) a l l' : Forall2 P (a :: l) l' -> exists b r, l' = b :: r /\ P a b /\ Forall2 P l r.
Proof. intros H. inversion H. eauto. Qed.

Section Save.
Variables (version today : bytes) (st : gstate) (args : list bytes) (opts : list (bytes * bytes)).
Variables (first : colour) (mv : gmove) (txt : option bytes) (rest : list (colour * gmove * option bytes)).
Hypothesis (CS : consistent st) (SB : savable st) (UV : is_utf8 version) (UT : is_utf8 today).
Hypothesis (OA : Forall2 option_arg args opts) (OF : forall k, In k reserved -> ~ In k (names opts)).
Hypothesis (HH : history_moves st = (first, mv, txt) :: rest).
Notation size := (st_size st).
Notation pr := (new_presenter (st_size st) UTF_8).
Notation W := (world_of empty_world (new_presenter (st_size st) UTF_8)).

Lemma size_ok : 1 <= size <= 25.
Proof. destruct CS as (_ & S & _). pose proof (sb_size _ SB). lia. Qed.

Lemma history_ok : Forall (fun x => move_on_board size (snd (fst x))) (history_moves st).
Proof.
  destruct CS as (_ & _ & _ & _ & RP). apply moves_on_board in RP. unfold moves_made in RP. unfold history_moves.
  rewrite Forall_map in *. exact RP.
Qed.

Lemma comments_ok m c : In (m, Some c) (history_moves st) -> is_utf8 c.
Proof.
  unfold history_moves. intros I. apply in_map_iff in I as (h & E & I). apply (sb_comments _ SB h); [exact I|].
  injection E as _ E. exact E.
Qed.

Lemma free k : In k reserved -> value_given opts k = None.
Proof. intros I. apply not_given. auto. Qed.

Definition root5 : content :=
  put_if (str "HA") PT_number (option_map VInt (st_handicap st)) (
  put (str "DT") PT_simpletext (VText today) (
  put (str "AP") PT_AP (VPair (str "gomill") version) (
  put (str "KM") PT_real (VReal (fst (st_komi st)) (snd (st_komi st))) (
  put (str "CA") PT_simpletext (VText (str "UTF-8")) (
  put (str "SZ") PT_number (VInt (st_size st)) (
  put (str "GM") PT_number (VInt 1) (
  put (str "FF") PT_number (VInt 4) (mkContent [] None)))))))).

Lemma step5 {A} (f : world -> gres A) (go : outcome -> (world -> gres A) -> gres A) :
  (forall w u h, go (w, Ok u) h = h w) ->
  exists m, reachable_world (W [m]) /\ root_map size root5 [] m /\
  (go (new_game empty_world size UTF_8) (fun w1 =>
   go (set_prop w1 0 (str "KM") (komi_value (st_komi st))) (fun w2 =>
   go (set_prop w2 0 (str "AP") (VPair (str "gomill") version)) (fun w3 =>
   go (set_prop w3 0 (str "DT") (VText today)) (fun w4 =>
   go (set_opt w4 0 (str "HA") (option_map VInt (st_handicap st))) f))))) = f (W [m]).
Proof.
  intros GO. pose proof size_ok as HS.
  set (d0 := (put (str "CA") PT_simpletext (VText (str "UTF-8")) (
  put (str "SZ") PT_number (VInt size) (
  put (str "GM") PT_number (VInt 1) (
  put (str "FF") PT_number (VInt 4) (mkContent [] None)))), []) : document).
  assert (shown size d0 [new_root_props size UTF_8]) as S0.
  { constructor; [|constructor]. cbn [fst d0].
    change (new_root_props size UTF_8) with (dset (str "CA") [str "UTF-8"] (dset (str "SZ") [str_int size]
      (dset (str "GM") [str "1"] (dset (str "FF") [str "4"] [])))).
    apply content_put; [apply content_put; [apply content_put; [apply content_put; [split; [intros; reflexivity|reflexivity]|..]|..]|..]|..];
      try discriminate.
    - exists (VInt 4). split; reflexivity.
    - exists (VInt 1). split; reflexivity.
    - exists (VInt size). split; [|reflexivity]. unfold interpret. change (effective_type pr (str "SZ")) with (Ok PT_number : res ptype).
      cbn [bind]. unfold interpret_as_type. cbn [uses_list interpret_single]. unfold interpret_number. rewrite py_int_str. reflexivity.
    - exists (VText (str "UTF-8")). split; [vm_compute; reflexivity|]. apply simple_utf8. }
  assert (reachable_world (fst (new_game empty_world size UTF_8))) as R0.
  { change (new_game empty_world size UTF_8) with (exec empty_world (NewGame size UTF_8)). apply rw_step; [constructor|]. split; constructor. }
  rewrite new_game_eq in * by lia. rewrite GO. cbn [fst] in R0.
  change (alloc_game empty_world size UTF_8 (new_root_props size UTF_8)) with (W [new_root_props size UTF_8]) in *.
  assert (forall d p k t v, shown size d p -> reachable_world (W p) -> is_valid_property_identifier k = true -> k <> str "SZ" -> k <> str "C" ->
    effective_type pr k = Ok t -> value_ok (pr_context pr) t v ->
    exists p', set_prop (W p) 0 k v = (W p', Ok tt) /\ shown size (on_root (put k t v) d) p' /\ reachable_world (W p')) as STEP.
  { intros d p k t v S R V N1 N2 T OK. destruct (put_root empty_world size HS d p k t v S V N1 N2 T OK) as (p' & E & S').
    exists p'. split; [exact E|]. split; [exact S'|]. apply shown_head in S as (a & b & -> & _).
    pose proof (proj1 (keeps_set (W (a :: b)) 0 k v R (root_lt _ _ _))) as K. change 0%nat with (List.length (w_nodes empty_world)) in K.
    rewrite E in K. exact K. }
  destruct (STEP d0 _ (str "KM") PT_real (komi_value (st_komi st)) S0 R0) as (p1 & E1 & S1 & R1);
    [reflexivity|discriminate|discriminate|reflexivity|exact (sb_komi _ SB)|]. rewrite E1, GO.
  destruct (STEP _ _ (str "AP") PT_AP (VPair (str "gomill") version) S1 R1) as (p2 & E2 & S2 & R2);
    [reflexivity|discriminate|discriminate|reflexivity|split; [apply ascii_utf8; reflexivity|exact UV]|]. rewrite E2, GO.
  destruct (STEP _ _ (str "DT") PT_simpletext (VText today) S2 R2) as (p3 & E3 & S3 & R3);
    [reflexivity|discriminate|discriminate|reflexivity|exact UT|]. rewrite E3, GO.
  assert (exists p4, set_opt (W p3) 0 (str "HA") (option_map VInt (st_handicap st)) = (W p4, Ok tt) /\
    shown size (root5, []) p4 /\ reachable_world (W p4)) as (p4 & E4 & S4 & R4).
  { unfold root5. destruct (st_handicap st) as [n|]; cbn [option_map set_opt put_if].
    - destruct (STEP _ _ (str "HA") PT_number (VInt n) S3 R3) as (p4 & E4 & S4 & R4);
        [reflexivity|discriminate|discriminate|reflexivity|exact I|]. exists p4. auto.
    - exists p3. split; [reflexivity|]. split; [exact S3|exact R3]. }
  rewrite E4, GO. unfold shown in S4. apply Forall2_cons_left in S4 as (m & r & -> & C & F). inversion F. subst r.
  exists m. split; [exact R4|]. split; [|reflexivity].
  apply root_start; [exact C| |]; unfold root5; destruct (st_handicap st); reflexivity.
Qed.

Lemma saved_maps : exists m ms,
  reachable_world (W (m :: ms)) /\
  root_map size (saved_root version today st (has_handicap st opts) (stones_of Black (st_base st)) (stones_of White (st_base st)) first) opts m /\
  Forall2 (content_map size) (map the_move (history_moves st)) ms /\
  saved_text version today st args =
    match serialise_game (W (m :: ms)) (new_sgf size empty_world) (Some 79) with Ok text => GOk text | Err e => uncaught e end.
Proof.
  pose proof size_ok as HS. unfold saved_text. cbv zeta. change (g_root (new_sgf size empty_world)) with 0%nat.
  match goal with |- context [go_do (set_opt _ _ _ _) ?f] => destruct (step5 f go_do) as (m5 & R5 & M5 & E5); [reflexivity|] end.
  rewrite E5. clear E5.
  destruct (options_ok size args opts OA (OF _ ltac:(simpl; tauto)) root5 [] m5 R5 M5) as (m6 & E6 & R6 & M6).
  rewrite E6. cbn [gbind app] in *.
  destruct CS as (_ & _ & _ & RB & _).
  destruct (stones_ok _ _ Black RB) as (_ & OB). destruct (stones_ok _ _ White RB) as (_ & OW).
  unfold set_initial_position. change (g_root (new_sgf size empty_world)) with 0%nat.
  destruct (setup_ok size HS root5 opts m6 (stones_of Black (st_base st)) (stones_of White (st_base st)) R6 M6) as (m7 & E7 & R7 & M7); auto.
  { intros k I. split; [apply free; simpl in *; tauto|]. unfold root5. destruct (st_handicap st); destruct I as [<-|[<-|[<-|[]]]]; reflexivity. }
  rewrite E7. cbn [go_do].
  destruct (record_maps empty_world size HS (history_moves st) [m7]) as (ms & E8 & F8).
  { discriminate. }
  { exact history_ok. }
  { exact comments_ok. }
  fold (history_moves st). rewrite E8. cbn [go_do].
  assert (reachable_world (W ([m7] ++ ms))) as R8.
  { pose proof (proj1 (keeps_record (new_sgf size empty_world) (history_moves st) (W [m7]) R7)) as K. rewrite E8 in K. exact K. }
  cbn [app] in *. rewrite HH in F8. cbn [map] in F8.
  apply Forall2_cons_left in F8 as (cm & r & -> & C & F).
  destruct (first_ok size HS _ opts m7 cm r first mv txt R8 M7 C) as (m9 & E9 & R9 & M9).
  { apply free. simpl. tauto. }
  rewrite E9. cbn [go_do]. exists m9, (cm :: r). split; [exact R9|]. split.
  2:{ split; [rewrite HH; constructor; auto|reflexivity]. }
  assert (forall k, value_given opts k = None -> dmem k m7 =
    match dget k (ct_props (put_if (str "AW") PT_point_list (point_value (stones_of White (st_base st)))
            (put_if (str "AB") PT_point_list (point_value (stones_of Black (st_base st))) root5))) with Some _ => true | None => false end) as DM.
  { intros k N. pose proof (M7 k) as M. rewrite N in M. unfold dmem. destruct (dget k (ct_props _)) as [[t v]|].
    - destruct M as (raw & M & _). rewrite M. reflexivity.
    - rewrite M. reflexivity. }
  assert (dmem (str "HA") m7 = has_handicap st opts) as DH.
  { unfold has_handicap. destruct (value_given opts (str "HA")) as [v|] eqn:V.
    - pose proof (M7 (str "HA")) as M. rewrite V in M. unfold dmem.
      match goal with |- context [dget ?k ?m] => replace (dget k m) with (Some [escape_text v]) by (symmetry; exact M) end. destruct (st_handicap st); reflexivity.
    - rewrite (DM _ V). unfold root5. destruct (stones_of White (st_base st)), (stones_of Black (st_base st)), (st_handicap st); reflexivity. }
  assert (dmem (str "AB") m7 = match stones_of Black (st_base st) with [] => false | _ => true end) as DB.
  { rewrite DM by (apply free; simpl; tauto). unfold root5. destruct (stones_of White (st_base st)), (stones_of Black (st_base st)), (st_handicap st); reflexivity. }
  assert (dmem (str "AW") m7 = match stones_of White (st_base st) with [] => false | _ => true end) as DW.
  { rewrite DM by (apply free; simpl; tauto). unfold root5. destruct (stones_of White (st_base st)), (stones_of Black (st_base st)), (st_handicap st); reflexivity. }
  rewrite DB, DW, DH in M9. unfold saved_root. fold root5.
  match goal with |- root_map _ (put_if _ _ (if ?b then _ else _) _) _ _ => match type of M9 with root_map _ (put_if _ _ (if ?b' then _ else _) _) _ _ => assert (b = b') as -> end end; [|exact M9].
  unfold tells_first. destruct (stones_of White (st_base st)), (stones_of Black (st_base st)), (has_handicap st opts), first; reflexivity.
Qed.

Lemma root_map_shows w n x c m : node_at w n = Some x -> pres_of w x = Some pr -> t_props x = m ->
  root_map size c opts m -> root_shows w c opts n.
Proof.
  intros E P <- M k. specialize (M k). pose proof size_ok as HS.
  assert (forall raw, dget k (t_props x) = Some raw -> get_prop w n k = interpret pr k raw) as GP.
  { intros raw D. unfold get_prop, get_raw_list. rewrite E, D. cbn [bind]. rewrite P. reflexivity. }
  destruct (value_given opts k) as [v|].
  - split.
    + exists (escape_text v). split; [unfold get_raw_list; rewrite E, M; reflexivity|apply C13_text_proof].
    + intros U t (y & pr' & E' & P' & T) TT. assert (y = x) by congruence. subst y. assert (pr' = pr) by congruence. subst pr'.
      destruct (C18_proof (pr_context pr) t (VText v) HS) as (raw & Se & _ & _ & v' & I & RB).
      { destruct TT as [->| ->]; exact U. }
      assert (raw = [escape_text v]) as ->.
      { destruct TT as [->| ->]; cbn in Se; injection Se as <-; reflexivity. }
      exists v'. split; [|exact RB]. rewrite (GP _ M). unfold interpret. rewrite T. exact I.
  - destruct (dget k (ct_props c)) as [[t v]|].
    + destruct M as (raw & D & v' & I & RB). exists v'. split; [|exact RB]. rewrite (GP _ D). exact I.
    + unfold has_property. rewrite E. unfold dmem. rewrite M. reflexivity.
Qed.

Lemma options_named : value_given opts [] = None.
Proof.
  apply not_given. unfold names. intros I. apply in_map_iff in I as ([k v] & E & I). cbn [fst] in E. subst k.
  clear -OA I. induction OA as [|arg kv a o A F IH]; [contradiction|]. destruct I as [->|I]; [|auto].
  apply option_name in A. discriminate.
Qed.

Lemma saved_loads : exists text, saved_text version today st args = GOk text /\
  forall w0, reachable_world w0 -> exists w1 g,
    load_string w0 text UTF_8 false = (w1, Ok tt) /\
    shows_state version today st opts first w1 (List.length (w_games w0)) g /\
    reachable_world w1 /\ g_pres g = pr /\ undisturbed w0 w1.
Proof.
  pose proof size_ok as HS. destruct saved_maps as (m & ms & R & M & F & E). set (c := saved_root _ _ _ _ _ _ _) in M.
  pose proof (world_data empty_world pr (m :: ms) m ms eq_refl) as D.
  assert (game_at (W (m :: ms)) 0 = Some (new_sgf size empty_world)) as G by reflexivity.
  assert (all_named (chain_data m ms)) as AN.
  { assert (Forall (fun m => dget [] m = None) (m :: ms)) as N.
    { constructor.
      - specialize (M []). rewrite options_named in M. subst c. unfold saved_root in M.
        destruct (tells_first _ _ _ _), (stones_of White (st_base st)), (stones_of Black (st_base st)), (st_handicap st); exact M.
      - clear -F. remember (map the_move (history_moves st)) as l eqn:EL. revert EL. generalize (history_moves st).
        induction F as [|x y l l' (C & _) F IH]; intros h EL; [constructor|]. destruct h as [|[[a b] d] h]; [discriminate|]. injection EL as -> ->.
        constructor; [|eapply IH; reflexivity]. specialize (C [] ltac:(discriminate)). destruct a; exact C. }
    clear -N. revert m N. induction ms as [|a rest IH]; intros m N; inversion N as [|? ? N1 N2]; subst; cbn [chain_data]; constructor;
      try (apply dget_None; exact N1); try constructor; auto. }
  destruct (C47_proof (W (m :: ms)) 0 (new_sgf size empty_world) _ (Some 79) R G D AN) as (out & So & L).
  exists out. split; [rewrite E; change (List.length (w_nodes empty_world)) with 0%nat in *; rewrite So; reflexivity|]. intros w0 R0.
  destruct (L w0 UTF_8 R0) as (w1 & g' & d' & Lo & G' & SZ & DA' & SD & U1 & U2).
  destruct (load_pres _ _ _ _ _ Lo) as (g2 & s2 & G2 & P2). assert (g2 = g') by congruence. subst g2.
  assert (s2 = size) as ->. { unfold g_size in *. rewrite P2 in SZ. cbn in SZ. exact SZ. }
  destruct (same_chain _ _ _ SD) as (m' & rest' & -> & SN).
  assert (reachable_world w1) as R1.
  { replace w1 with (fst (exec w0 (LoadString out UTF_8 false))) by (cbn [exec]; rewrite Lo; reflexivity).
    apply rw_step; [exact R0|]. split; constructor. }
  exists w1, g'. split; [exact Lo|]. split; [|split; [exact R1|]; split; [exact P2|split; [exact U1|exact U2]]].
  destruct (data_chain _ _ _ _ DA') as (nodes & T & N).
  pose proof (nodes_pres w1 _ g' nodes R1 G' T) as PR. rewrite P2 in PR.
  destruct CS as (_ & _ & _ & RB & _).
  exists nodes, (stones_of Black (st_base st)), (stones_of White (st_base st)).
  split; [exact G'|]. split; [exact SZ|]. split; [exact T|].
  split; [exact (proj1 (stones_ok _ _ Black RB))|]. split; [exact (proj1 (stones_ok _ _ White RB))|].
  inversion PR as [|? ? (x & E1 & P1) PR']. subst. inversion N as [|? ? ? ? (y & E2 & P3) N']. subst. assert (y = x) by congruence. subst y.
  inversion SN as [|? ? ? ? S1 S2]. subst. split.
  - eapply root_map_shows; [exact E1|exact P1|reflexivity|]. eapply root_same; [exact S1|exact M].
  - clear -F S2 N' PR'. revert rest' S2 nodes N' PR'. induction F as [|d a l l' C F IH]; intros r' S2 nodes N' PR'; inversion S2; subst; inversion N' as [|? ? ? ? (x & E & P) N2]; subst; constructor.
    + inversion PR' as [|? ? (y & E' & P') PR2]. subst. assert (y = x) by congruence. subst y. eapply node_shows_map; [exact E|exact P'|]. eapply content_same; eauto.
    + inversion PR'; subst. eapply IH; eauto.
Qed.

End Save.
