(** Proofs about the game records (C57): the main statements. *)
From Coq Require Import QArith.
From Verif Require Import Base Bytes PyStr Dict BoardModel BoardSpec BoardProofs CommonModel SgfGrammarModel SgfGrammarSpec
  SgfTreeConvModel SgfGrammarProofs SgfTreeConvProofs SgfPropsModel SgfPropsSpec SgfPropsProofs SgfValueSpec SgfValueProofs SgfTypeErrorProofs
  SgfTreeModel SgfTreeSpec SgfTreeProofs SgfNodeProofs SgfGameProofs SgfTreeMainProofs SgfSaveProofs SgfMovesModel SgfMovesSpec SgfMovesProofs
  GameplayModel GameplaySpec GameplayProofs GameplayRunProofs GameSgfModel GameSgfSpec SgfChainProofs GameSgfProofs GameSgfDocProofs GameSgfReadProofs.
Open Scope Z_scope.

(** ** The world that make_sgf leaves displays the document *)

Lemma world_data w0 pr ps m rest : ps = m :: rest ->
  data_of (world_of w0 pr ps) (List.length (w_nodes w0)) (chain_data m rest).
Proof.
  intros E. apply (chain_to_data _ (map (fun j => (List.length (w_nodes w0) + S j)%nat) (seq 0 (List.length ps - 1)))).
  - apply world_tree. subst ps. discriminate.
  - assert (forall k j, (List.length ps = j + k)%nat ->
      Forall2 (node_map (world_of w0 pr ps)) (map (fun j => (List.length (w_nodes w0) + j)%nat) (seq j k)) (skipn j ps)) as H.
    { induction k as [|k IH]; intros j L.
      - rewrite skipn_all2 by lia. constructor.
      - assert (exists a, skipn j ps = a :: skipn (S j) ps /\ nth j ps [] = a) as (a & -> & N).
        { clear -L. revert j L. induction ps as [|b l IHl]; intros j L; [cbn in L; lia|]. destruct j; [exists b; auto|].
          cbn in L. destruct (IHl j ltac:(lia)) as (a & A & B). exists a. auto. }
        cbn [seq map]. constructor; [|apply IH; lia]. exists (node_of w0 ps j). split; [apply world_node; lia|exact N]. }
    specialize (H (List.length ps) O ltac:(lia)). rewrite E in H at 2. cbn [List.length seq map skipn] in H.
    replace (List.length (w_nodes w0) + 0)%nat with (List.length (w_nodes w0)) in H by lia.
    replace (List.length ps - 1)%nat with (List.length rest) by (subst ps; cbn; lia).
    rewrite E in H at 2. rewrite <- (seq_shift (List.length rest) 0), map_map in H. exact H.
Qed.

Lemma shown_displays d w0 size ps : reachable_world (world_of w0 (new_presenter size UTF_8) ps) -> shown size d ps ->
  exists nodes, displays d (world_of w0 (new_presenter size UTF_8) ps) (List.length (w_games w0)) (new_sgf size w0) nodes.
Proof.
  intros R S. pose proof (shown_head _ _ _ S) as (m & rest & E & A & B).
  apply (maps_display d _ _ (new_sgf size w0) size m rest R).
  - apply world_game.
  - reflexivity.
  - change (g_root (new_sgf size w0)) with (List.length (w_nodes w0)). apply world_data. exact E.
  - constructor; auto.
Qed.

Lemma record_proof version today r w : recordable r -> is_utf8 version -> is_utf8 today -> reachable_world w ->
  exists w' nodes, make_sgf version today r w = (w', Ok tt) /\ reachable_world w' /\ undisturbed w w' /\
    displays (the_game version today r) w' (List.length (w_games w)) (new_sgf (ru_size r) w) nodes.
Proof.
  intros RC UV UT R. destruct (make_ok w (ru_size r) (rc_size _ RC) version today r eq_refl RC UV UT) as (ps & E & S).
  pose proof (make_reachable version today r w R) as R'. rewrite E in R'. cbn [fst] in R'.
  destruct (shown_displays _ _ _ _ R' S) as (nodes & D). eexists. exists nodes. split; [exact E|]. split; [exact R'|].
  split; [apply world_undisturbed|exact D].
Qed.

(** ** The record as a game *)

Lemma on_end_props k s d :
  dget k (ct_props (fst (on_end (say s) d))) = dget k (ct_props (fst d)) /\
  map ct_props (snd (on_end (say s) d)) = map ct_props (snd d).
Proof.
  destruct d as [c l]. unfold on_end. cbn [fst snd]. destruct (exists_last_or l) as [->|(l' & x & ->)]; [split; reflexivity|].
  rewrite rev_app_distr. cbn [rev app fst snd]. split; [reflexivity|]. rewrite rev_involutive, !map_app. reflexivity.
Qed.

Lemma game_props version today r :
  (forall k, dget k (ct_props (fst (the_game version today r))) = dget k (ct_props (the_root version today r))) /\
  map ct_props (snd (the_game version today r)) = map ct_props (map the_move (ru_moves r)).
Proof.
  unfold the_game. destruct (ru_final r) as [[c m]|]; [|split; reflexivity].
  split; [intros k; exact (proj1 (on_end_props k _ (the_root version today r, map the_move (ru_moves r))))|].
  exact (proj2 (on_end_props [] _ (the_root version today r, map the_move (ru_moves r)))).
Qed.

Lemma root_AB version today r : dget (str "AB") (ct_props (the_root version today r)) =
  match stones_list (ru_stones r) with [] => None | _ => Some (PT_point_list, VPoints (stones_list (ru_stones r))) end.
Proof. unfold the_root. destruct (stones_list (ru_stones r)), (ru_handicap r), (ru_result r); reflexivity. Qed.

Lemma root_key version today r k : In k [str "AW"; str "AE"; str "B"; str "W"; str "PB"; str "PW"; []] ->
  dget k (ct_props (the_root version today r)) = None.
Proof.
  intros I. unfold the_root. repeat (destruct I as [<-|I]; [destruct (stones_list (ru_stones r)), (ru_handicap r), (ru_result r); reflexivity|]).
  contradiction.
Qed.

Lemma game_plays version today r : plays (the_game version today r) (stones_list (ru_stones r)) (map fst (ru_moves r)).
Proof.
  destruct (game_props version today r) as (A & B). split; [rewrite A; apply root_AB|]. split.
  - intros k I. rewrite A. apply root_key. cbn in *. tauto.
  - assert (forall (P : list (bytes * (ptype * pvalue)) -> colour * gmove -> Prop) l l', map ct_props l = map ct_props (map the_move l') ->
      (forall x, P (ct_props (the_move x)) (fst x)) -> Forall2 (fun c cm => P (ct_props c) cm) l (map fst l')) as H.
    { clear. intros P l. induction l as [|c l IH]; intros [|x l'] E H; try discriminate; [constructor|]. injection E as E1 E2.
      cbn [map]. constructor; [rewrite E1; apply H|]. apply IH; auto. }
    refine (H (fun m cm => (forall k, In k [str "AB"; str "AW"; str "AE"; (match fst cm with Black => str "W" | White => str "B" end)] -> dget k m = None) /\
      dget (match fst cm with Black => str "B" | White => str "W" end) m = Some (PT_move, match snd cm with None => VNone | Some p => VPoint p end)) _ _ B _).
    intros [[c m] cm]. cbn [the_move ct_props fst snd]. split.
    + intros k I. destruct c; repeat (destruct I as [<-|I]; [reflexivity|]); contradiction.
    + destruct c; reflexivity.
Qed.

Lemma game_named version today r : let d := the_game version today r in Forall (fun c => dget [] (ct_props c) = None) (fst d :: snd d).
Proof.
  intros d. destruct (game_props version today r) as (A & B). constructor; [unfold d; rewrite A; apply root_key; cbn; tauto|].
  unfold d. revert B. generalize (snd (the_game version today r)). intros l B.
  rewrite Forall_forall. intros c I. apply (in_map ct_props) in I. rewrite B, map_map in I. apply in_map_iff in I as ([[c' m] cm] & <- & _).
  cbn. destruct c'; reflexivity.
Qed.

Lemma new_sgf_pres size w : g_pres (new_sgf size w) = new_presenter (g_size (new_sgf size w)) UTF_8.
Proof. reflexivity. Qed.

(** ** The accessors *)

Lemma value_get w n k t v (P : res pvalue -> Prop) : value_is w n k t v -> (forall v', reads_back t v v' -> P (Ok v')) -> P (get_prop w n k).
Proof. intros (v' & -> & R) H. auto. Qed.

Lemma has_none w n k x : node_at w n = Some x -> has_property w n k = false -> get_prop w n k = Err KeyError.
Proof. intros E H. unfold get_prop, get_raw_list. rewrite E, (no_prop_key _ _ _ _ E H). reflexivity. Qed.

Lemma root_node d w i g nodes : displays d w i g nodes -> exists x, node_at w (g_root g) = Some x.
Proof. intros (_ & T & _). destruct nodes; inversion T; eauto. Qed.

Lemma displays_get d w i g nodes k : displays d w i g nodes -> k <> str "C" ->
  match dget k (ct_props (fst d)) with
  | Some (t, v) => exists v', get_prop w (g_root g) k = Ok v' /\ reads_back t v v'
  | None => get_prop w (g_root g) k = Err KeyError
  end.
Proof.
  intros D N. pose proof (root_node _ _ _ _ _ D) as (x & E). destruct D as (_ & _ & (S & _) & _). specialize (S k N).
  destruct (dget k (ct_props (fst d))) as [[t v]|]; [exact S|]. eapply has_none; eauto.
Qed.

Lemma komi_proof d w i g nodes m k : displays d w i g nodes -> dget (str "KM") (ct_props (fst d)) = Some (PT_real, VReal m k) ->
  get_komi w g = Ok (if Z.abs m * 10000 <? 10 ^ Z.of_nat k then (0, O) else (m, k)).
Proof.
  intros D E. pose proof (displays_get d w i g nodes (str "KM") D ltac:(discriminate)) as H. rewrite E in H.
  destruct H as (v' & G & R). unfold get_komi. rewrite G. destruct v'; cbn [reads_back] in R; try contradiction.
  destruct (_ <? _); destruct R as (-> & ->); reflexivity.
Qed.

Lemma handicap_proof d w i g nodes o : displays d w i g nodes ->
  dget (str "HA") (ct_props (fst d)) = option_map (fun n => (PT_number, VInt n)) o ->
  get_handicap w g = match o with
                     | None | Some 0 => Ok None
                     | Some 1 => Err ValueError
                     | Some n => Ok (Some n)
                     end.
Proof.
  intros D E. pose proof (displays_get d w i g nodes (str "HA") D ltac:(discriminate)) as H. rewrite E in H.
  unfold get_handicap. destruct o as [n|]; cbn [option_map] in H; [|rewrite H; reflexivity].
  destruct H as (v' & -> & R). cbn [reads_back] in R. subst v'. destruct (Z.eqb_spec n 0) as [->|N]; [reflexivity|].
  destruct (Z.eqb_spec n 1) as [->|N']; [reflexivity|]. destruct n as [|[| |]|]; try reflexivity; congruence.
Qed.

Definition letter_winner (c : ascii) : option colour :=
  if ceqb (lower_char c) "b"%char then Some Black else if ceqb (lower_char c) "w"%char then Some White else None.

Lemma norm_first s t : simpletext_norm s t ->
  match t with [] => None | c :: _ => letter_winner c end = match s with [] => None | c :: _ => letter_winner c end.
Proof.
  intros (u & N & ->). inversion N as [|s' u' N' E1 E2|s' u' N' E1 E2|s' u' NI N' E1 E2|s' u' NI N' E1 E2|c s' u' [->|[->| ->]] N' E1 E2|c s' u' NI N' E1 E2];
    subst; try reflexivity.
  cbn [map]. unfold newline_to_space. destruct (ascii_dec c "010"%char) as [E|E]; [|reflexivity].
  subst. exfalso. apply NI. cbn. auto.
Qed.

Lemma winner_proof d w i g nodes o : displays d w i g nodes ->
  dget (str "RE") (ct_props (fst d)) = option_map (fun s => (PT_simpletext, VText s)) o ->
  get_winner w g = Ok (match o with Some (c :: _) => letter_winner c | _ => None end).
Proof.
  intros D E. pose proof (displays_get d w i g nodes (str "RE") D ltac:(discriminate)) as H. rewrite E in H.
  unfold get_winner. destruct o as [s|]; cbn [option_map] in H; [|rewrite H; reflexivity].
  destruct H as (v' & -> & R). destruct v' as [| | | | |t| | | | | |]; try (cbn [reads_back] in R; destruct R; fail). cbn [reads_back] in R.
  apply norm_first in R. rewrite <- R. destruct t as [|c t]; reflexivity.
Qed.

Lemma name_proof d w i g nodes c o : displays d w i g nodes ->
  dget (player_key c) (ct_props (fst d)) = option_map (fun s => (PT_simpletext, VText s)) o ->
  match o with
  | None => get_player_name w g c = Ok None
  | Some s => exists t, get_player_name w g c = Ok (Some t) /\ simpletext_norm s t
  end.
Proof.
  intros D E. pose proof (displays_get d w i g nodes (player_key c) D ltac:(destruct c; discriminate)) as H. rewrite E in H.
  unfold get_player_name. destruct o as [s|]; cbn [option_map] in H; [|rewrite H; reflexivity].
  destruct H as (v' & -> & R). destruct v' as [| | | | |t| | | | | |]; try (cbn [reads_back] in R; destruct R; fail). eauto.
Qed.

(** ** A game that was played *)

Lemma result_winner r o : (exists wi m, scored_result wi m r) \/ (exists e, unscored_result e r) -> o = Some (r_sgf r) ->
  match o with Some (c :: _) => letter_winner c | _ => None end = r_winner r.
Proof.
  intros H ->. destruct H as [(wi & m & W & _ & _ & ->)|(e & W & _ & E)].
  - rewrite W. destruct wi as [[]|], m; reflexivity.
  - rewrite W. destruct e as [| |c|c|c why]; [contradiction|..]; destruct E as (-> & _); [reflexivity|..]; destruct c; reflexivity.
Qed.

Definition ascii7 (s : bytes) : Prop := forallb (fun c => ord c <? 128) s = true.
Lemma ascii7_app a b : ascii7 a -> ascii7 b -> ascii7 (a ++ b).
Proof. unfold ascii7. intros A B. rewrite forallb_app, A, B. reflexivity. Qed.
Lemma ascii7_int z : ascii7 (str_int z).
Proof.
  assert (forall z, 0 <= z -> ascii7 (str_int z)) as H.
  { intros y Y. pose proof (str_int_nonneg y Y) as (_ & D & _). unfold ascii7. rewrite forallb_forall in *. intros c I. specialize (D c I).
    unfold is_digit in D. apply andb_prop in D as (_ & D). apply Z.ltb_lt. apply Z.leb_le in D. change (ord "9"%char) with 57 in D. lia. }
  rewrite str_int_abs. apply ascii7_app; [destruct (z <? 0); reflexivity|]. apply H. lia.
Qed.
Lemma ascii7_float m : ascii7 (format_float m).
Proof.
  unfold format_float. destruct (normalise_dec (fst m) (snd m)) as [n [|k]]; [apply ascii7_int|].
  apply ascii7_app; [destruct (n <? 0); reflexivity|]. apply ascii7_app; [apply ascii7_int|]. apply ascii7_app; [reflexivity|].
  unfold zfill. apply ascii7_app; [|apply ascii7_int]. induction (_ - _)%nat as [|j IH]; [reflexivity|exact IH].
Qed.

Lemma result_utf8 r : (exists wi m, scored_result wi m r) \/ (exists e, unscored_result e r) -> is_utf8 (r_sgf r).
Proof.
  intros H. apply ascii_utf8. fold (ascii7 (r_sgf r)). destruct H as [(wi & m & W & _ & _ & ->)|(e & W & _ & E)].
  - destruct wi as [c|], m as [m|]; try reflexivity; [|destruct c; reflexivity]. repeat apply ascii7_app; [destruct c; reflexivity|reflexivity|apply ascii7_float].
  - destruct e as [| |c|c|c why]; [contradiction|..]; destruct E as (-> & _); [reflexivity|..]; destruct c; reflexivity.
Qed.

Lemma run_facts {S} (B : backend S) pick fuel r s r' s' out size limit stones :
  2 <= size <= 25 -> ready r size limit stones -> (forall p, In p (stones_list stones) -> on_board size p) ->
  run B fuel pick r s = (r', s', out) ->
  ru_size r' = size /\ ru_komi r' = ru_komi r /\ ru_handicap r' = ru_handicap r /\ ru_stones r' = stones /\
  (forall x, ru_result r' = Some x -> (exists wi m, scored_result wi m x) \/ (exists e, unscored_result e x)) /\
  (out = Ok tt -> ru_result r' <> None) /\
  exists pos, starting_position size stones pos /\ record_is_legal size limit pos (first_player stones) (ru_moves r').
Proof.
  intros S25 Rd O H. pose proof (run_transparent B fuel pick r s []) as T.
  destruct (run (logged B) fuel pick r (s, [])) as [[r2 [s2 log]] out2] eqn:E. rewrite H in T. injection T as -> -> ->.
  pose proof (run_record B pick fuel r s r' s' log out size limit stones S25 Rd O E) as RR.
  pose proof (run_correct B pick fuel r s r' s' log out size limit stones S25 Rd O E) as (pos & _ & RC).
  assert (same_config r (with_state (ru_state r) r') ) as SC.
  { destruct (make_game_ok pick r size limit stones (proj1 S25) Rd O) as (b & MG & Rb & SP). pose proof Rd as (Q1 & Q2 & Q3 & Q4 & Q5 & Q6 & Q7 & Q8).
    unfold run in E. rewrite MG in E. replace ((ru_state r =? 1) || (ru_state r =? 2)) with true in E by (destruct Q8 as [-> | ->]; reflexivity).
    cbn [negb] in E. apply (run_loop_ok B size limit pick (proj2 S25) fuel (mkRS (start (view b) (first_player stones)) []) 0%nat) in E.
    - destruct E as ((A1 & A2 & A3 & A4 & A5 & A6) & _). unfold same_config. cbn in *. auto 8.
    - apply new_game_shows. exact Rb.
    - intros p K. discriminate.
    - split; [lia|reflexivity].
    - cbn. exact Q4. }
  destruct SC as (A1 & A2 & A3 & A4 & A5 & A6). cbn in A1, A2, A3, A4, A5. destruct Rd as (Q1 & Q2 & Q3 & _).
  split; [congruence|]. split; [congruence|]. split; [congruence|]. split; [congruence|]. split; [|split; [|exact RR]].
  - intros x X. destruct out as [[]|e].
    + destruct RC as (y & e & final & sc & res & _ & _ & _ & _ & RS & K). assert (x = res) by congruence. subst x.
      destruct sc as [g|]; [left; destruct K; eauto|right; eauto].
    + destruct RC as (N & _). congruence.
  - intros ->. destruct RC as (y & e & final & sc & res & _ & _ & _ & _ & RS & K). congruence.
Qed.

Lemma legal_on_board s x y : legal_game s x y -> (forall cm p, In cm (s_moves x) -> snd cm = Some p -> on_board s p) ->
  forall cm p, In cm (s_moves y) -> snd cm = Some p -> on_board s p.
Proof.
  intros L H. induction L as [|y m z L IH St]; [exact H|]. inversion St as [E1 E2|q pos' ko' (O & _) G K E1 E2]; subst; cbn [s_moves]; intros cm p I Ep;
    apply in_app_or in I as [I|[<-|[]]]; eauto; cbn [snd] in Ep; [discriminate|]. congruence.
Qed.

Lemma played_recordable {S} (B : backend S) pick fuel r s r' s' out size limit stones :
  2 <= size <= 25 -> ready r size limit stones -> (forall p, In p (stones_list stones) -> on_board size p) -> komi_ok (ru_komi r) ->
  run B fuel pick r s = (r', s', out) ->
  (forall m c, In (m, Some c) (ru_moves r') -> is_utf8 c) -> (forall c m, ru_final r' = Some (c, m) -> is_utf8 m) ->
  recordable r'.
Proof.
  intros S25 Rd O K H UC UF. destruct (run_facts B pick fuel r s r' s' out size limit stones S25 Rd O H) as (A1 & A2 & A3 & A4 & A5 & A6 & pos & SP & sit & L & M & AL & LI).
  constructor; auto; try congruence.
  - lia.
  - intros x X. apply result_utf8. auto.
  - rewrite A4, A1. apply Forall_forall. exact O.
  - rewrite A1. apply Forall_forall. intros x I p Ep. unfold moves_only in M. apply (in_map fst) in I. rewrite M in I.
    refine (legal_on_board _ _ _ L _ (fst x) p I Ep). intros cm q [].
Qed.

Lemma played_proof {S} (B : backend S) pick fuel r s r' s' out size limit stones version today w :
  2 <= size <= 25 -> ready r size limit stones -> (forall p, In p (stones_list stones) -> on_board size p) -> komi_ok (ru_komi r) ->
  Z.of_nat (List.length (stones_list stones)) < size * size ->
  run B fuel pick r s = (r', s', out) ->
  (forall m c, In (m, Some c) (ru_moves r') -> is_utf8 c) -> (forall c m, ru_final r' = Some (c, m) -> is_utf8 m) ->
  is_utf8 version -> is_utf8 today -> reachable_world w ->
  exists w' nodes, make_sgf version today r' w = (w', Ok tt) /\ reachable_world w' /\ undisturbed w w' /\
    let g := new_sgf size w in
    displays (the_game version today r') w' (List.length (w_games w)) g nodes /\
    get_winner w' g = Ok (match ru_result r' with Some x => r_winner x | None => None end) /\
    exists b pos, get_setup_and_moves pick w' g None = (Some b, Ok (moves_only (ru_moves r'))) /\
      starting_position size stones pos /\ same_on size (view b) pos /\
      record_is_legal size limit pos (first_player stones) (ru_moves r').
Proof.
  intros S25 Rd O K FP H UC UF UV UT R.
  pose proof (played_recordable B pick fuel r s r' s' out size limit stones S25 Rd O K H UC UF) as RC.
  destruct (run_facts B pick fuel r s r' s' out size limit stones S25 Rd O H) as (A1 & A2 & A3 & A4 & A5 & A6 & pos & SP & RL).
  destruct (record_proof version today r' w RC UV UT R) as (w' & nodes & E & R' & U & D). rewrite A1 in D.
  exists w', nodes. split; [exact E|]. split; [exact R'|]. split; [exact U|]. intros g. split; [exact D|]. split.
  - rewrite (winner_proof _ w' _ g nodes (option_map r_sgf (ru_result r')) D).
    + destruct (ru_result r') as [x|] eqn:X; [|reflexivity]. f_equal. apply (result_winner x); auto.
    + rewrite (proj1 (game_props version today r')). unfold the_root. destruct (stones_list (ru_stones r')), (ru_handicap r'), (ru_result r'); reflexivity.
  - destruct (free_point size (stones_list stones) ltac:(lia) FP) as (e & OE & NE).
    pose proof (game_plays version today r') as P. rewrite A4 in P.
    destruct (read_proof pick _ w' _ g nodes _ _ e R' D (new_sgf_pres size w) ltac:(exact (proj1 S25)) P OE NE) as (b & Rd1 & Rb & V).
    exists b, pos. split; [exact Rd1|]. split; [exact SP|]. split; [|exact RL].
    intros p OP. specialize (V p OP). unfold starting_position in SP. fold (stones_list stones) in SP.
    pose proof (black_legal size (stones_list stones) e OE NE) as LG.
    set (pos0 := setup_position empty_position (stones_list stones) [] []) in *.
    assert (pos p = pos0 p) as ->.
    { destruct (SP p OP) as (_ & C2). apply C2. intros (N & NL). apply NL. exact (LG p OP N). }
    unfold pos0, setup_position. cbn [mem_point]. destruct (mem_point p (stones_list stones)) eqn:M.
    + apply V. apply mem_point_In. exact M.
    + apply V. intros I. apply mem_point_In in I. congruence.
Qed.
