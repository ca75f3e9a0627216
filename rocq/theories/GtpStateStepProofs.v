(** Proofs about the remaining commands of a GTP engine with a state (C37, C38). *)
From Verif Require Import Base Bytes PyStr BoardModel BoardSpec BoardProofs BoardPlayProofs BoardMainProofs
  CommonModel CommonSpec CommonProofs SgfPropsModel SgfTreeModel SgfMovesModel GtpModel GtpStateModel GtpStateSpec
  GtpStateProofs GtpLoadProofs GtpStateMainProofs.

Lemma interpret_vertex_board v s p : interpret_vertex v s = GOk (Some p) -> on_board s p.
Proof.
  unfold interpret_vertex. destruct (move_from_vertex_total v s) as [->|(_ & [[-> _]|(q & -> & O)])]; try discriminate.
  intros E. injection E as <-. exact O.
Qed.

From Coq Require Import Permutation.
Lemma NoDup_snoc {A} (x : A) l : NoDup l -> ~ In x l -> NoDup (l ++ [x]).
Proof.
  intros N I. eapply Permutation_NoDup; [apply Permutation_cons_append|]. constructor; assumption.
Qed.

Lemma Forall2_len {A B} (P : A -> B -> Prop) l l' : Forall2 P l l' -> List.length l = List.length l'.
Proof. induction 1; cbn [List.length]; congruence. Qed.

(** ** set_free_handicap *)

Definition stones (pts : list point) : position := fun p => if mem_point p pts then Some Black else None.

Lemma place_vertices_spec pick s : 0 <= s -> forall args b pts0, reachable s b ->
  same_on s (view b) (stones pts0) -> NoDup pts0 ->
  Z.of_nat (List.length pts0) + Z.of_nat (List.length args) <= s * s - 1 ->
  match place_vertices pick s b args with
  | (b', GOk _) => reachable s b' /\ exists pts,
      Forall2 (fun a p => interpret_vertex a s = GOk (Some p)) args pts /\ NoDup (pts0 ++ pts) /\
      same_on s (view b') (stones (pts0 ++ pts))
  | (b', _) => reachable s b'
  end.
Proof.
  intros Hs. induction args as [|v args IH]; intros b pts0 R V ND L; cbn [place_vertices].
  - split; [exact R|]. exists []. rewrite app_nil_r. auto.
  - destruct (interpret_vertex v s) as [[[row col]|]| | | |] eqn:IV; try exact R.
    pose proof (interpret_vertex_board _ _ _ IV) as O. cbn [List.length] in L.
    destruct (play_cases pick s b (row, col) Black R)
      as [(_ & Em & b' & ko & E & R' & M & _)|[(_ & Em & E)|(NO & _)]]; [| |contradiction]; cbn [fst snd] in E; rewrite E.
    + assert (~ In (row, col) pts0) as NI.
      { rewrite (V _ O) in Em. unfold stones in Em. destruct (mem_point_spec (row, col) pts0); [discriminate|assumption]. }
      destruct (point_left s ((row, col) :: pts0)) as (e & Oe & Ne); [exact Hs|cbn [List.length]; lia|].
      assert (same_on s (view b') (stones (pts0 ++ [(row, col)]))) as V'.
      { eapply same_on_trans; [eapply black_move with (e := e); [| | | | |exact M]|].
        - intros p Op. rewrite (V p Op). unfold stones. destruct (mem_point p pts0); auto.
        - exact O.
        - exact Oe.
        - intros ->. apply Ne. left. reflexivity.
        - rewrite (V e Oe). unfold stones. destruct (mem_point_spec e pts0); [|reflexivity]. exfalso. apply Ne. right. assumption.
        - intros p Op. unfold place. rewrite (V p Op). unfold stones.
          destruct (point_eqb_spec (row, col) p) as [<-|N].
          + destruct (mem_point_spec (row, col) (pts0 ++ [(row, col)])) as [_|X]; [reflexivity|].
            exfalso. apply X. apply in_or_app. right. left. reflexivity.
          + destruct (mem_point_spec p pts0), (mem_point_spec p (pts0 ++ [(row, col)])) as [X|X]; auto; exfalso.
            * apply X, in_or_app. auto.
            * apply in_app_or in X. destruct X as [X|[X|[]]]; auto. }
      specialize (IH b' (pts0 ++ [(row, col)]) R' V').
      destruct (place_vertices pick s b' args) as [b2 [u| | | |]]; try (apply IH; [|rewrite app_length; cbn [List.length]; lia];
        apply NoDup_snoc; assumption).
      destruct IH as (R2 & pts & F & N2 & V2).
      * apply NoDup_snoc; assumption.
      * rewrite app_length. cbn [List.length]. lia.
      * split; [exact R2|]. exists ((row, col) :: pts). rewrite <- app_assoc in N2, V2. cbn [app] in N2, V2.
        split; [constructor; assumption|]. auto.
    + exact R.
Qed.

Lemma step_set_free env st args : inv st ->
  good_step env Set_free_handicap st args (handle_set_free_handicap (env_pick env) st args).
Proof.
  intros I. unfold handle_set_free_handicap, max_free_handicap. pose proof I as ((A1 & A2 & A3 & A4 & _) & F & _).
  destruct ((2 <=? Z.of_nat (List.length args)) && (Z.of_nat (List.length args) <=? st_size st * st_size st - 1)) eqn:Rg;
    cbn [negb]; [|apply fail_now; auto; discriminate].
  apply andb_true_iff in Rg. destruct Rg as [R1 R2]. apply Z.leb_le in R1, R2.
  destruct (is_empty (st_board st)) eqn:Em; cbn [negb]; [|apply fail_now; auto; discriminate].
  destruct (empty_black _ _ A3 Em) as [_ EV].
  pose proof (place_vertices_spec (env_pick env) (st_size st) ltac:(lia) args (st_board st) [] A3) as H.
  assert (same_on (st_size st) (view (st_board st)) (stones [])) as V0 by (intros p Op; rewrite (EV p Op); reflexivity).
  specialize (H V0 (NoDup_nil _)). cbn [List.length Z.of_nat] in H. specialize (H ltac:(lia)).
  destruct (place_vertices (env_pick env) (st_size st) (st_board st) args) as [b r] eqn:PV.
  assert (forall r : gres (option bytes), (forall a, r <> GOk a) ->
    good_step env Set_free_handicap st args (reset_then (with_board st b) r)) as Fail.
  { intros r0 N. destruct (reset_then_ok (with_board st b) r0) as (st' & -> & NG & I').
    { split; [exact A1|exact F]. }
    assert (failure Set_free_handicap st st') as Fl by (right; left; split; [reflexivity|]; split; [exact Em|exact NG]).
    unfold good_step. destruct r0; try (split; [exact Fl|]; split; [apply inv_weak; exact I'|intros _; exact I']).
    exfalso. eapply N. reflexivity. }
  destruct r; try (apply Fail; discriminate).
  destruct H as (Rb & pts & F2 & ND & V). cbn [app] in ND, V. rewrite (copy_proof _ _ Rb).
  assert (List.length pts = List.length args) as LE by (symmetry; eapply Forall2_len; eauto).
  cbn [good_step].
  match goal with |- effect _ _ _ _ _ ?st' /\ _ =>
    destruct (handicap_done st st' b (Z.of_nat (List.length args)) pts) as [A B]; auto end.
  - intros p Op. rewrite (V p Op), (EV p Op). reflexivity.
  - split; [|exact B]. cbn [effect]. exists pts. rewrite LE. do 4 (split; [assumption || lia|]). split; [exact A|reflexivity].
Qed.

(** ** play and genmove *)

Lemma replays_snoc s base l b c m b' : replays s base l b -> replays s b [(c, m)] b' -> replays s base (l ++ [(c, m)]) b'.
Proof. intros. eapply replays_app; eauto. Qed.

Lemma add_stone_inv pick st c row col b ko com coo : inv st ->
  play pick (st_board st) row col c = (b, Ok ko) ->
  let st' := add_move (with_ko_player (with_ko (with_board st b) ko) (Some (opponent_of c))) (mkH c (Some (row, col)) com coo) in
  one_more (mkH c (Some (row, col)) com coo) st st' /\ inv st'.
Proof.
  intros I E st'. pose proof I as ((A1 & A2 & A3 & A4 & A5) & F & _).
  destruct (play_cases pick _ _ (row, col) c A3) as [(O & V & b' & ko' & E' & Rb & M & K)|[(_ & _ & E')|(_ & E')]];
    cbn [fst snd] in E'; rewrite E in E'; try discriminate. injection E' as <- <-.
  assert (moves_made st' = moves_made st ++ [(c, Some (row, col))]) as MM.
  { unfold moves_made, st', add_move. cbn [st_history with_history with_ko_player with_ko with_board]. rewrite map_app. reflexivity. }
  split; [split; [split; assumption|reflexivity]|]. split; [|split].
  - unfold consistent. rewrite MM. do 4 (split; [assumption|]).
    eapply replays_snoc; [exact A5|]. eapply rp_move; [exact O|exact V|exact M|apply rp_done, same_on_refl].
  - exact F.
  - rewrite MM. apply ko_local_kst. right. exists (moves_made st), c, (row, col), []. do 3 (split; [auto|]).
    intros k. cbn [st_ko st' add_move with_history with_ko_player with_ko]. rewrite K.
    eapply ko_after_move; eauto.
Qed.

Lemma pass_inv st st' c com coo : inv st ->
  st_ko st' = st_ko st \/ st_ko st' = None -> st_ko_player st' = st_ko_player st -> st_board st' = st_board st ->
  info_of st' = mkI (st_sizes st) (st_size st) (st_base st) (st_history st ++ [mkH c None com coo]) (st_handicap st) (st_komi st)
                    (st_time_settings st) (st_time_b st) (st_time_w st) ->
  one_more (mkH c None com coo) st st' /\ inv st'.
Proof.
  intros I K P B Inf. split; [split; [exact Logic.I|exact Inf]|].
  pose proof I as ((A1 & A2 & A3 & A4 & A5) & F & KS). injection Inf as E1 E2 E3 E4 E5 E6 E7 E8 E9.
  assert (moves_made st' = moves_made st ++ [(c, None)]) as MM.
  { unfold moves_made. rewrite E4, map_app. reflexivity. }
  split; [|split].
  - unfold consistent. rewrite MM, E1, E2, E3, B. do 4 (split; [assumption|]).
    eapply replays_snoc; [exact A5|]. apply rp_pass, rp_done, same_on_refl.
  - rewrite E1. exact F.
  - rewrite MM, E2, E3, P. split.
    + destruct K as [->|K]; [|left; exact K]. destruct KS as [[KS|(l1 & c1 & q & ps & k & M & Fp & Pl & Kk & Ka)] _]; [left; exact KS|].
      right. exists l1, c1, q, (ps ++ [(c, None)]), k. rewrite M, <- app_assoc. cbn [app]. split; [reflexivity|].
      split; [apply Forall_app; auto|]. auto.
    + intros l1 c1 q X. apply app_inj_tail in X. destruct X as [_ X]. discriminate.
Qed.

Lemma step_play env st args : inv st -> good_step env Play st args (handle_play (env_pick env) st args).
Proof.
  intros I. unfold handle_play. destruct args as [|a [|v rest]]; try (apply fail_now; auto; discriminate).
  apply get_or_step; auto. intros c Ec. apply get_or_step; auto. intros m Em. destruct m as [[row col]|].
  - destruct (play (env_pick env) (st_board st) row col c) as [b [ko|e]] eqn:E.
    + destruct (add_stone_inv _ _ _ _ _ _ _ None None I E) as [A B]. split; [|exact B].
      exists a, v, rest, c, (Some (row, col)). auto.
    + assert (b = st_board st) as ->.
      { pose proof I as ((_ & _ & A3 & _) & _). destruct (C03_play_proof (env_pick env) _ _ row col c A3) as (_ & _ & H).
        specialize (H e). rewrite E in H. apply H. reflexivity. }
      replace (with_board st (st_board st)) with st by (destruct st; reflexivity).
      destruct e; apply fail_now; auto; discriminate.
  - destruct (pass_inv st (add_move (with_ko st None) (mkH c None None None)) c None None I) as [A B]; auto.
    split; [|exact B]. exists a, v, rest, c, None. auto.
Qed.

Lemma genmove_core env st a rest c claims : inv st -> interpret_colour a = GOk c ->
  let (st', r) := handle_genmove_common (env_pick env) (env_gen env) false claims st (a :: rest) in
  match r with GOk r => genmove_effect env claims c st r st' /\ inv st' | _ => st' = st end.
Proof.
  intros I Ec. unfold handle_genmove_common. cbn [first_arg]. rewrite Ec. cbn [get_or].
  destruct (env_gen env (state_for st c false) c) as [g|e] eqn:Eg; [|reflexivity].
  destruct (claims && gen_claim g) eqn:Cl.
  - split; [|exact I]. exists g. split; [exact Eg|]. left. apply andb_true_iff in Cl. destruct Cl. unfold unchanged. auto.
  - destruct (gen_resign g) eqn:Re.
    + split; [|exact I]. exists g. split; [exact Eg|]. right. left. unfold unchanged. auto.
    + destruct (gen_pass g) eqn:Pa.
      * destruct (pass_inv st (add_move st (mkH c None (gen_comments g) (gen_cookie g))) c (gen_comments g) (gen_cookie g) I) as [A B]; auto.
        split; [|exact B]. exists g. split; [exact Eg|]. right. right. split; [exact Cl|].
        exists None, (str "pass"). unfold generated_move. rewrite Re, Pa. auto.
      * destruct (gen_move g) as [[row col]|] eqn:Gm; [|reflexivity].
        destruct (format_vertex (Some (row, col))) as [v|e] eqn:Fv; [|reflexivity].
        destruct (play (env_pick env) (st_board st) row col c) as [b [ko|e]] eqn:E.
        -- destruct (add_stone_inv _ _ _ _ _ _ _ (gen_comments g) (gen_cookie g) I E) as [A B]. split; [|exact B].
           exists g. split; [exact Eg|]. right. right. split; [exact Cl|].
           exists (Some (row, col)), v. unfold generated_move. rewrite Re, Pa, Gm.
           split; [split; [reflexivity|split; [reflexivity|discriminate]]|]. auto.
        -- assert (b = st_board st) as ->.
           { pose proof I as ((_ & _ & A3 & _) & _). destruct (C03_play_proof (env_pick env) _ _ row col c A3) as (_ & _ & HH).
             specialize (HH e). rewrite E in HH. apply HH. reflexivity. }
           replace (with_board st (st_board st)) with st by (destruct st; reflexivity).
           destruct e; reflexivity.
Qed.

Lemma fail_same env c st args st' (r : gres (option bytes)) : inv st -> (forall a, r <> GOk a) -> st' = st ->
  good_step env c st args (st', r).
Proof. intros I N ->. apply fail_now; auto. Qed.

Lemma step_genmove env st args : inv st -> good_step env Genmove st args (handle_genmove (env_pick env) (env_gen env) st args).
Proof.
  intros I. destruct args as [|a rest]; [apply fail_now; auto; discriminate|].
  destruct (interpret_colour a) as [c| | | |] eqn:Ec;
    try (unfold handle_genmove, handle_genmove_common; cbn [first_arg]; rewrite Ec; apply fail_now; auto; discriminate).
  pose proof (genmove_core env st a rest c false I Ec) as H. unfold handle_genmove.
  destruct (handle_genmove_common _ _ _ _ st (a :: rest)) as [st' r].
  destruct r; try (apply fail_same; auto; discriminate). destruct H as [G I']. split; [|exact I']. exists a, rest, c. auto.
Qed.

Lemma claim_word rest : existsb (fun x => bytes_eqb x (str "claim")) rest = true <-> In (str "claim") rest.
Proof.
  rewrite existsb_exists. split.
  - intros (x & Hx & Ex). destruct (bytes_eqb_spec x (str "claim")); [subst; exact Hx|discriminate].
  - intros Hx. exists (str "claim"). split; [exact Hx|]. destruct (bytes_eqb_spec (str "claim") (str "claim")); congruence.
Qed.

Lemma step_genmove_ex env st args : inv st ->
  good_step env Genmove_ex st args (handle_genmove_ex (env_pick env) (env_gen env) st args).
Proof.
  intros I. unfold handle_genmove_ex. destruct args as [|a rest].
  - split; [|exact I]. left. unfold unchanged. auto.
  - destruct (interpret_colour a) as [c| | | |] eqn:Ec;
      try (unfold handle_genmove_common; cbn [first_arg]; rewrite Ec; apply fail_now; auto; discriminate).
    pose proof (genmove_core env st a [] c (existsb (fun x => bytes_eqb x (str "claim")) rest) I Ec) as H.
    destruct (handle_genmove_common _ _ _ _ st [a]) as [st' r].
    destruct r; try (apply fail_same; auto; discriminate). destruct H as [G I']. split; [|exact I']. right.
    exists a, rest, c. split; [reflexivity|]. split; [exact Ec|]. eexists. split; [|exact G]. apply claim_word.
Qed.

Lemma step_reg_genmove env st args : inv st ->
  good_step env Reg_genmove st args (handle_reg_genmove (env_pick env) (env_gen env) st args).
Proof.
  intros I. unfold handle_reg_genmove, handle_genmove_common. apply get_or_step; auto. intros c Ec.
  apply first_arg_ok in Ec. destruct Ec as (a & rest & -> & Ec).
  destruct (env_gen env (state_for st c true) c) as [g|e] eqn:Eg; [|apply fail_now; auto; discriminate].
  cbn [andb]. destruct (gen_resign g) eqn:Re.
  - split; [|exact I]. exists a, rest, c, g. unfold unchanged. rewrite Re. auto.
  - destruct (gen_pass g) eqn:Pa.
    + split; [|exact I]. exists a, rest, c, g. unfold unchanged. rewrite Re. do 4 (split; [auto|]).
      exists None, (str "pass"). unfold generated_move. rewrite Re, Pa. auto.
    + destruct (gen_move g) as [[row col]|] eqn:Gm; [|apply fail_now; auto; discriminate].
      destruct (format_vertex (Some (row, col))) as [v|e] eqn:Fv; [|apply fail_now; auto; discriminate].
      split; [|exact I]. exists a, rest, c, g. unfold unchanged. rewrite Re. do 4 (split; [auto|]).
      exists (Some (row, col)), v. unfold generated_move. rewrite Re, Pa, Gm.
      split; [split; [reflexivity|split; [reflexivity|discriminate]]|]. auto.
Qed.

(** ** undo and loadsgf *)

(** What [reset_to_moves] leaves, as an invariant. *)
Lemma replayed_inv st st1 l : In (st_size st) (st_sizes st) -> Forall (fun n => 2 <= n) (st_sizes st) ->
  reachable (st_size st) (st_base st) ->
  reachable (st_size st) (st_board st1) ->
  replays (st_size st) (view (st_base st)) (map mv l) (view (st_board st1)) ->
  ko_local (st_size st) (view (st_base st)) (map mv l) (st_ko st1) (st_ko_player st1) ->
  info_of st1 = info_of (with_history st l) -> inv st1.
Proof.
  intros A F Rb R Rp K Inf. injection Inf as E1 E2 E3 E4 _ _ _ _ _.
  assert (moves_made st1 = map mv l) as MM by (unfold moves_made; rewrite E4; reflexivity).
  pose proof F as F'. rewrite Forall_forall in F'.
  split; [|split].
  - unfold consistent. rewrite MM, E1, E2, E3. cbn [st_sizes st_size st_base with_history]. auto 6.
  - rewrite E1. exact F.
  - rewrite MM, E2, E3. apply ko_local_kst. exact K.
Qed.

Lemma step_undo env st args : inv st -> good_step env Undo st args (handle_undo (env_pick env) st args).
Proof.
  intros I. unfold handle_undo. pose proof I as ((A1 & A2 & A3 & A4 & A5) & F & _).
  destruct (st_history st) as [|h0 hs0] eqn:Hs; [apply fail_now; auto; discriminate|].
  destruct (exists_last (l := h0 :: hs0) ltac:(discriminate)) as (hs & h & EH). rewrite EH, removelast_last.
  assert (exists p, replays (st_size st) (view (st_base st)) (map mv hs) p) as (p & Rp).
  { unfold moves_made in A5. rewrite Hs, EH in A5. change (fun h1 => (h_colour h1, h_move h1)) with mv in A5.
    rewrite map_app in A5. apply replays_app_inv in A5. destruct A5 as (p & Rp & _). eauto. }
  pose proof (reset_to_moves_spec (env_pick env) (st_size st) st hs A4 (history_on_board _ _ _ _ Rp)) as H.
  destruct (reset_to_moves (env_pick env) st hs) as [st1 [u|e]].
  - destruct H as (R & Rq & K & Inf). split.
    + exists h, hs. split; [congruence|]. split; [|reflexivity]. rewrite Inf. reflexivity.
    + eapply replayed_inv; eauto.
  - destruct H as (_ & _ & X). exfalso. eapply X. exact Rp.
Qed.

Lemma step_loadsgf env st args : inv st ->
  good_step env Loadsgf st args (handle_loadsgf (env_pick env) (env_files env) st args).
Proof.
  intros I. unfold handle_loadsgf. pose proof I as ((A1 & A2 & A3 & A4 & A5) & F & _).
  destruct args as [|path rest]; [apply fail_now; auto; discriminate|].
  apply get_or_step; auto. intros mn Emn.
  destruct (env_files env path) as [[text e]|] eqn:Ef; [|apply fail_now; auto; discriminate].
  apply get_or_step; auto. intros [size c] Er.
  destruct (existsb (Z.eqb size) (st_sizes st)) eqn:M; cbn [negb]; [|apply fail_now; auto; discriminate].
  apply existsb_eqb in M. pose proof F as F'. rewrite Forall_forall in F'. pose proof (F' _ M) as L2.
  pose proof (read_file_spec (env_pick env) text e size c Er L2) as RS.
  assert (forall (r : gres (option bytes)) st3, (forall a, r <> GOk a) ->
     st_board st3 = st_board st -> st_size st3 = size ->
     info_of st3 = mkI (st_sizes st) size (st_base st) (st_history st) (st_handicap st) (st_komi st)
                       (st_time_settings st) (st_time_b st) (st_time_w st) ->
     kst (st_size st) (view (st_base st)) (moves_made st) (st_ko st3) (st_ko_player st3) ->
     good_step env Loadsgf st (path :: rest) (st3, r)) as Fail.
  { intros r st3 N B Sz Inf K. injection Inf as E1 E2 E3 E4 E5 E6 E7 E8 E9.
    assert (failure Loadsgf st st3) as Fl.
    { right. right. split; [reflexivity|]. rewrite Sz. split; [exact M|]. split; [exact B|].
      unfold info_of. congruence. }
    assert (weak_inv st3) as W by (split; rewrite E1; [rewrite Sz; exact M|exact F]).
    assert (Loadsgf <> Loadsgf \/ st_size st3 = st_size st -> inv st3) as II.
    { intros [X|X]; [congruence|]. unfold inv, consistent, moves_made. rewrite X, B, E1, E3, E4.
      split; [|split; [exact F|exact K]]. auto. }
    unfold good_step. destruct r; auto. exfalso. eapply N. reflexivity. }
  destruct I as (Ic & _ & KS).
  destruct c as [[[[komi handicap] b] ms]| | | |]; cbn [get_or];
    try (apply Fail; try discriminate; try reflexivity; exact KS).
  destruct (RS komi handicap b ms eq_refl) as (Rb & On & Fs).
  set (hm := map (fun cm => mkH (fst cm) (snd cm) None None) ms).
  set (newh := match mn with None => hm | Some n => firstn (Z.to_nat (Z.max 0 (n - 1))) hm end).
  assert (exists n, match rest with
                 | [] => n = List.length ms
                 | a :: _ => exists z, interpret_int a = GOk z /\ n = Z.to_nat (z - 1)
                 end /\ newh = map (fun cm => mkH (fst cm) (snd cm) None None) (firstn n ms)) as (n & Hn & Hnew).
  { destruct rest as [|a rest].
    - injection Emn as <-. exists (List.length ms). split; [reflexivity|]. rewrite firstn_all. reflexivity.
    - destruct (interpret_int a) as [z| | | |]; cbn [gbind] in Emn; try discriminate. injection Emn as <-.
      exists (Z.to_nat (z - 1)). split; [eauto|]. unfold newh, hm. rewrite firstn_map. do 2 f_equal. lia. }
  assert (map mv newh = firstn n ms) as MV.
  { rewrite Hnew, map_map. unfold mv. cbn [h_colour h_move]. rewrite <- (map_id (firstn n ms)) at 2. apply map_ext. intros [x y]; reflexivity. }
  assert (Forall (fun h => forall p, h_move h = Some p -> on_board size p) newh) as OnH.
  { assert (Forall (fun cm => forall p, snd cm = Some p -> on_board size p) (firstn n ms)) as X.
    { rewrite <- (firstn_skipn n ms) in On. apply Forall_app in On. tauto. }
    rewrite <- MV, Forall_map in X. exact X. }
  set (st1 := set_history_base (with_size st size) b).
  pose proof (reset_to_moves_spec (env_pick env) size st1 newh Rb OnH) as H.
  destruct (reset_to_moves (env_pick env) st1 newh) as [st2 [u|ex]].
  - destruct H as (R2 & Rp2 & K2 & Inf2).
    destruct (set_komi_clipped st2 komi) as (k & Ek & Ck). rewrite Ek.
    pose proof Inf2 as Inf2'. injection Inf2' as E1 E2 E3 E4 E5 E6 E7 E8 E9. split.
    + exists path, rest, text, e, size, komi, handicap, (view b), ms, k, b.
      do 5 (split; [assumption || reflexivity|]). split; [|reflexivity]. exists n. split; [exact Hn|]. split; [exact Rb|].
      split; [apply same_on_refl|]. unfold info_of.
      cbn [with_handicap with_komi st_sizes st_size st_base st_history st_handicap st_komi st_time_settings st_time_b st_time_w].
      rewrite E1, E2, E3, E4, E7, E8, E9, Hnew. reflexivity.
    + assert (inv st2) as I2 by (eapply (replayed_inv st1); eauto).
      eapply inv_same; [exact I2|..]; reflexivity.
  - destruct H as (-> & Inf2 & _). injection Inf2 as E1 E2 E3 E4 E5 E6 E7 E8 E9.
    set (st2' := set_history_base st2 (st_base st)).
    assert (Forall (fun h => forall q, h_move h = Some q -> on_board (st_size st) q) (st_history st)) as OnO
      by (eapply history_on_board; exact A5).
    pose proof (reset_to_moves_spec (env_pick env) (st_size st) st2' (st_history st) A4 OnO) as H.
    destruct (reset_to_moves (env_pick env) st2' (st_history st)) as [st3 [u|ex]].
    + destruct H as (R3 & Rp3 & K3 & Inf3).
      apply Fail; try discriminate.
      * eapply reachable_ext; eauto. eapply replays_fun; [exact Rp3|exact A5].
      * injection Inf3 as _ X _ _ _ _ _ _ _. rewrite X. exact E2.
      * rewrite Inf3. unfold info_of, st2', set_history_base.
        cbn [with_history with_base st_sizes st_size st_base st_history st_handicap st_komi st_time_settings st_time_b st_time_w].
        rewrite E1, E2, E5, E6, E7, E8, E9. reflexivity.
      * apply ko_local_kst. exact K3.
    + destruct H as (_ & _ & X). exfalso. eapply X. exact A5.
Qed.

(** ** The other commands *)

Lemma step_showboard env st args : inv st -> good_step env Showboard st args (handle_showboard st args).
Proof.
  intros I. unfold handle_showboard. destruct (render_board (st_board st)) as [s|e] eqn:E; cbn [lift gbind].
  - split; [|exact I]. split; [reflexivity|]. eauto.
  - apply fail_now; auto; discriminate.
Qed.

Lemma step_explain env st args : inv st -> good_step env Explain_last_move st args (handle_explain_last_move st args).
Proof.
  intros I. split; [|exact I]. split; [reflexivity|].
  destruct (st_history st) as [|h hs] using rev_ind; [left; auto|]. right. exists hs, h. rewrite rev_app_distr. auto.
Qed.

Lemma nth_arg_ok {A} (f : bytes -> gres A) i args a : nth_arg f i args = GOk a ->
  exists x, nth_error args i = Some x /\ f x = GOk a.
Proof. unfold nth_arg. destruct (nth_error args i); [eauto|discriminate]. Qed.

Lemma step_time_left env st args : inv st -> good_step env Time_left st args (handle_time_left st args).
Proof.
  intros I. unfold handle_time_left. apply get_or_step; auto. intros c Ec. apply get_or_step; auto. intros t Et.
  apply get_or_step; auto. intros n En.
  apply nth_arg_ok in Ec, Et, En. destruct Ec as (a1 & N1 & E1), Et as (a2 & N2 & E2), En as (a3 & N3 & E3).
  destruct args as [|x1 [|x2 [|x3 rest]]]; try discriminate. injection N1 as ->. injection N2 as ->. injection N3 as ->.
  split; [|eapply inv_same; eauto]. exists a1, a2, a3, rest, c, t, n. do 8 (split; [assumption || reflexivity|]). reflexivity.
Qed.

Lemma step_time_settings env st args : inv st -> good_step env Time_settings st args (handle_time_settings st args).
Proof.
  intros I. unfold handle_time_settings. apply get_or_step; auto. intros c Ec. apply get_or_step; auto. intros t Et.
  apply get_or_step; auto. intros n En.
  apply nth_arg_ok in Ec, Et, En. destruct Ec as (a1 & N1 & E1), Et as (a2 & N2 & E2), En as (a3 & N3 & E3).
  destruct args as [|x1 [|x2 [|x3 rest]]]; try discriminate. injection N1 as ->. injection N2 as ->. injection N3 as ->.
  split; [|eapply inv_same; eauto]. exists a1, a2, a3, rest, c, t, n. do 8 (split; [assumption || reflexivity|]). reflexivity.
Qed.

Lemma step_all env cmd st args : inv st -> good_step env cmd st args (handle env cmd st args).
Proof.
  intros I. destruct cmd; cbn [handle].
  - apply step_boardsize; auto.
  - apply step_clear_board, inv_weak; auto.
  - apply step_komi; auto.
  - apply step_fixed; auto.
  - apply step_set_free; auto.
  - apply step_place_free; auto.
  - apply step_play; auto.
  - apply step_genmove; auto.
  - apply step_genmove_ex; auto.
  - apply step_reg_genmove; auto.
  - apply step_undo; auto.
  - apply step_showboard; auto.
  - apply step_loadsgf; auto.
  - apply step_explain; auto.
  - apply step_time_left; auto.
  - apply step_time_settings; auto.
Qed.
