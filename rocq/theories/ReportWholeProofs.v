From Coq Require Import QArith Lqa Permutation.
From Verif Require Import Base Bytes PyStr Dict CommonModel SgfPropsModel SgfPropsProofs SgfValueProofs SchedModel GtpModel GameplayModel GameplaySpec GameplayResultProofs TournModel TournSpec TournConfProofs
  TableModel TableSpec TableProofs TableMainProofs TableReadProofs TableProps ReportModel ReportSpec ReportTextProofs ReportTableProofs ReportSaysProofs.
Open Scope Z_scope.

Lemma ended_join l : l <> [] -> say (join [char_lf] l) = ended l.
Proof.
  intros N. unfold say, ended. induction l as [|x l IH]; [congruence|]. destruct l as [|y l].
  - cbn. rewrite app_nil_r. reflexivity.
  - change (join [char_lf] (x :: y :: l)) with (x ++ [char_lf] ++ join [char_lf] (y :: l)).
    cbn [map List.concat] in *. rewrite <- !app_assoc. do 2 f_equal. rewrite IH by discriminate. rewrite <- app_assoc. reflexivity.
Qed.
Lemma ended_app a b : ended (a ++ b) = ended a ++ ended b.
Proof. unfold ended. rewrite map_app, concat_app. reflexivity. Qed.
Lemma ended_one l : ended [l] = say l.
Proof. unfold ended, say. cbn. apply app_nil_r. Qed.

Section Whole.
Variable tie : Z -> Z -> bool.

Lemma report_proof d rs : word (d_player_1 d) -> word (d_player_2 d) -> has_times (d_player_1 d) rs -> has_times (d_player_2 d) rs ->
  exists text, matchup_report tie d rs = Ok text /\ summary_says d rs text.
Proof.
  intros W1 W2 T1 T2. unfold matchup_report.
  destruct (average_time_of _ rs T1) as (a1 & E1 & _). destruct (average_time_of _ rs T2) as (a2 & E2 & _).
  rewrite E1, E2. cbn [bind].
  destruct (table_proof tie _ _ rs a1 a2 W1 W2 T1 T2 E1 E2) as (t & lines & ET & ER & TS).
  unfold matchup_summary. cbv zeta. rewrite ET. cbn [bind]. rewrite ER. cbn [bind]. eexists. split; [reflexivity|].
  set (n := count gr_unknown rs).
  assert (GN : games_such (fun r => gr_winner r = None /\ gr_jigo r = false) rs n).
  { apply count_such. intros r. unfold gr_unknown. destruct (gr_winner r); [split; [discriminate|intros [X _]; discriminate]|].
    rewrite negb_true_iff. tauto. }
  pose proof (count_nonneg gr_unknown rs) as NN. fold n in NN.
  exists (if 0 <? n then [str "unknown results: " ++ str_int n ++ str " " ++ format_percent tie (2 * n) (Z.of_nat (List.length rs))] else []), lines.
  split; [exact TS|]. split.
  - exists n. split; [exact GN|]. destruct (Z.ltb_spec 0 n).
    + right. split; [assumption|]. eexists. split; [|reflexivity]. apply percent_shown; lia.
    + left. split; [lia|reflexivity].
  - rewrite !ended_app, !ended_one. rewrite ended_join by (destruct TS as (? & ? & ? & ? & ? & ? & ? & -> & _); discriminate).
    cbn [total unknown]. change (total (matchup_stats rs (d_player_1 d) (d_player_2 d))) with (Z.of_nat (List.length rs)).
    change (unknown (matchup_stats rs (d_player_1 d) (d_player_2 d))) with n.
    f_equal; [unfold say; rewrite <- !app_assoc; reflexivity|]. f_equal. destruct (0 <? n); [rewrite ended_one|]; reflexivity.
Qed.

Lemma float_says f : komi_says f (str_float f).
Proof.
  unfold komi_says, str_float. destruct (format_float_reads f) as (x & P & V).
  destruct (normalise_value (fst f) (snd f)) as [NV NC].
  assert (V0 : (value (fst f, snd f) == value f)%Q) by (destruct f; reflexivity).
  unfold format_float in *. destruct (normalise_dec (fst f) (snd f)) as [n [|k]] eqn:E; cbn [fst snd] in *.
  - split; [apply in_or_app; right; left; reflexivity|].
    destruct (str_int_nonneg (Z.abs n) ltac:(lia)) as (V1 & D & N).
    pose proof (py_float_dec (n <? 0) (str_int (Z.abs n)) (str "0") N D eq_refl) as Q.
    rewrite (str_int_abs n), <- app_assoc. change (str ".0") with (str "." ++ str "0").
    eexists. split; [exact Q|]. rewrite digits_val_app, V1.
    assert ((if n <? 0 then - (Z.abs n * 10 ^ Z.of_nat (List.length (str "0")) + digits_val (str "0"))
             else Z.abs n * 10 ^ Z.of_nat (List.length (str "0")) + digits_val (str "0")) = 10 * n) as ->
      by (change (digits_val (str "0")) with 0; change (10 ^ Z.of_nat (List.length (str "0"))) with 10; destruct (Z.ltb_spec n 0); lia).
    rewrite (proj1 (normalise_value (10 * n) _)), <- V0, <- NV. unfold value. cbn [fst snd].
    change (10 ^ Z.of_nat (List.length (str "0"))) with 10. change (10 ^ Z.of_nat 0) with 1.
    rewrite inject_Z_mult. change (inject_Z 10) with (10 # 1)%Q. change (inject_Z 1) with 1%Q. field.
  - split; [|exists x; split; [exact P|exact V]].
    apply in_or_app. right. apply in_or_app. right. left. reflexivity.
Qed.

Lemma described_proof given m : matchup_says given m (describe_matchup given m).
Proof.
  unfold matchup_says, describe_matchup. cbn [d_name d_player_1 d_player_2 d_games d_details].
  split; [destruct given; [left; reflexivity|right; split; reflexivity]|]. do 3 (split; [reflexivity|]).
  unfold describe_details, handicap_says. eexists. exists (str_float (s_komi (m_settings m))).
  split; [|split; [apply float_says|]].
  - instantiate (1 := match s_handicap (m_settings m) with Some n => str "handicap: " ++ str_int n ++ (if s_free (m_settings m) then str " (free)   " else str " (fixed)   ") | None => [] end).
    destruct (s_handicap (m_settings m)); reflexivity.
  - destruct (s_handicap (m_settings m)); [|reflexivity]. destruct (s_free (m_settings m)); reflexivity.
Qed.
Lemma ghost_described p : ghost_says p (describe_ghost p).
Proof. reflexivity. Qed.

Lemma live_proof given t : forall ms first,
  (forall m, In m ms -> word (m_player_1 m) /\ word (m_player_2 m) /\
     has_times (m_player_1 m) (get_matchup_results t (m_id m)) /\ has_times (m_player_2 m) (get_matchup_results t (m_id m))) ->
  exists parts,
    Forall2 (fun m part => exists d, matchup_says (given (m_id m)) m d /\ summary_says d (get_matchup_results t (m_id m)) part)
      (filter (fun m => negb (Nat.eqb (List.length (get_matchup_results t (m_id m))) 0)) ms) parts /\
    matchup_reports tie given t first ms = Ok (if first then join [char_lf] parts else List.concat (map (fun p => [char_lf] ++ p) parts)).
Proof.
  induction ms as [|m ms IH]; intros first H.
  - exists []. split; [constructor|]. destruct first; reflexivity.
  - cbn [matchup_reports filter]. destruct (H m (or_introl eq_refl)) as (W1 & W2 & T1 & T2).
    assert (H' : forall m, In m ms -> word (m_player_1 m) /\ word (m_player_2 m) /\
     has_times (m_player_1 m) (get_matchup_results t (m_id m)) /\ has_times (m_player_2 m) (get_matchup_results t (m_id m))) by (intros; apply H; right; assumption).
    destruct (get_matchup_results t (m_id m)) as [|r rs] eqn:E.
    + cbn [List.length Nat.eqb negb]. apply IH. exact H'.
    + cbn [List.length Nat.eqb negb].
      destruct (report_proof (describe_matchup (given (m_id m)) m) (r :: rs) W1 W2 T1 T2) as (text & ER & S). rewrite ER. cbn [bind].
      destruct (IH false H') as (parts & F & EP). rewrite EP. cbn [bind].
      exists (text :: parts). split; [constructor; [eexists; split; [apply described_proof|rewrite E; exact S]|exact F]|]. f_equal. destruct first.
      * cbn [app]. clear. revert text. induction parts as [|p parts IH]; intros text; [cbn; apply app_nil_r|].
        change (join [char_lf] (text :: p :: parts)) with (text ++ [char_lf] ++ join [char_lf] (p :: parts)).
        rewrite <- (IH p). cbn [map List.concat app]. reflexivity.
      * cbn [map List.concat]. unfold say. cbn [app]. reflexivity.
Qed.

Lemma ghosts_proof t : forall l,
  (forall id p, In (id, p) l -> word (fst p) /\ word (snd p) /\ has_times (fst p) (get_matchup_results t id) /\ has_times (snd p) (get_matchup_results t id)) ->
  exists parts,
    Forall2 (fun g part => exists d, ghost_says (snd g) d /\ summary_says d (get_matchup_results t (fst g)) part) l parts /\
    ghost_reports tie t l = Ok (List.concat (map (fun p => [char_lf] ++ p) parts)).
Proof.
  induction l as [|[id p] l IH]; intros H.
  - exists []. split; [constructor|reflexivity].
  - cbn [ghost_reports]. destruct (H id p (or_introl eq_refl)) as (W1 & W2 & T1 & T2).
    destruct (report_proof (describe_ghost p) (get_matchup_results t id) W1 W2 T1 T2) as (text & ER & S). rewrite ER. cbn [bind].
    destruct IH as (parts & F & EP); [intros; apply H; right; assumption|]. rewrite EP. cbn [bind].
    exists (text :: parts). split; [constructor; [eexists; split; [apply ghost_described|exact S]|exact F]|]. cbn [map List.concat]. unfold say. cbn [app]. reflexivity.
Qed.

(** ** Sorting *)
Lemma insert_perm {A} (x : bytes * A) l : Permutation (x :: l) (insert_key x l).
Proof.
  induction l as [|y l IH]; [reflexivity|]. cbn [insert_key]. destruct (bytes_ltb (fst y) (fst x)); [|reflexivity].
  rewrite perm_swap. constructor. exact IH.
Qed.

Inductive in_order {A} : list (bytes * A) -> Prop :=
| order_nil : in_order []
| order_cons x l : (forall y, In y l -> bytes_ltb (fst y) (fst x) = false) -> in_order l -> in_order (x :: l).

Lemma insert_order {A} (x : bytes * A) l : in_order l -> in_order (insert_key x l).
Proof.
  induction 1 as [|y l H O IH]; cbn [insert_key]; [constructor; [intros ? []|constructor]|].
  destruct (bytes_ltb (fst y) (fst x)) eqn:E.
  - constructor; [|exact IH]. intros z Z. apply (Permutation_in z (Permutation_sym (insert_perm x l))) in Z.
    destruct Z as [<-|Z]; [|apply H; exact Z]. destruct (bytes_ltb (fst x) (fst y)) eqn:X; [|reflexivity].
    pose proof (bytes_ltb_trans _ _ _ X E) as Y. rewrite bytes_ltb_irrefl in Y. discriminate.
  - constructor; [|constructor; assumption]. intros z [<-|Z]; [exact E|].
    destruct (bytes_ltb (fst z) (fst x)) eqn:X; [|reflexivity].
    destruct (bytes_ltb_total _ _ E) as [Y|Y].
    + pose proof (bytes_ltb_trans _ _ _ X Y) as Q. rewrite (H z Z) in Q. discriminate.
    + rewrite <- Y, (H z Z) in X. discriminate.
Qed.

Lemma sort_proof {A} (l : list (bytes * A)) : by_key l (sort_keys l).
Proof.
  split.
  - induction l as [|x l IH]; [reflexivity|]. cbn [sort_keys fold_right]. rewrite <- insert_perm. constructor. exact IH.
  - assert (O : in_order (sort_keys l)) by (induction l as [|x l IH]; [constructor|apply insert_order; exact IH]).
    induction O as [|z s H O IH]; intros i j x y L I J.
    + destruct i; discriminate.
    + destruct j as [|j]; [lia|]. cbn [nth_error] in J. destruct i as [|i].
      * cbn [nth_error] in I. injection I as <-. apply H. exact (nth_error_In _ _ J).
      * exact (IH i j x y ltac:(lia) I J).
Qed.

Lemma descriptions_proof t : players_say t (player_descriptions t).
Proof.
  exists (sort_keys (t_descs t)). split; [apply sort_proof|]. unfold player_descriptions, ended. rewrite map_map. reflexivity.
Qed.

Lemma header_say kind code description :
  say (kind ++ str ": " ++ code) ++ (match description with Some (c :: r) => say (c :: r) | _ => [] end) ++ say [] =
  ended (describing kind code description).
Proof.
  unfold describing. rewrite !ended_app, !ended_one. f_equal. f_equal. destruct description as [[|c r]|]; [reflexivity| |reflexivity].
  rewrite ended_one. reflexivity.
Qed.

Lemma playoff_proof code description given t : reportable t ->
  (exists live, playoff_screen_report tie given t = Ok live /\ live_says given t live) /\
  exists live ghosts players, live_says given t live /\ ghosts_say t ghosts /\ players_say t players /\
    playoff_short_report tie code description given t =
      Ok (ended (describing (str "playoff") code description) ++ live ++ ghosts ++ [char_lf] ++ players ++ [char_lf]).
Proof.
  intros [R1 R2]. unfold playoff_short_report, playoff_screen_report.
  destruct (live_proof given t (cf_matchups (t_config t)) true R1) as (parts & F & EP). rewrite EP. cbn [bind].
  destruct (ghosts_proof t (sort_keys (t_ghosts t))) as (gparts & GF & GE).
  { intros id p I. apply R2. apply (Permutation_in _ (Permutation_sym (proj1 (sort_proof (t_ghosts t))))). exact I. }
  rewrite GE. cbn [bind]. split; [eexists; split; [reflexivity|exists parts; split; [exact F|reflexivity]]|].
  eexists. eexists. eexists. split; [exists parts; split; [exact F|reflexivity]|].
  split; [exists (sort_keys (t_ghosts t)), gparts; split; [apply sort_proof|]; split; [exact GF|reflexivity]|].
  split; [apply descriptions_proof|]. rewrite <- header_say. f_equal. rewrite <- !app_assoc. reflexivity.
Qed.

(** ** The table of an all-play-all *)
Lemma with_codes_of players l : forall i seen cs, competitor_specs players i l seen = Ok cs -> with_codes i l = Ok cs.
Proof.
  induction l as [|p l IH]; intros i seen cs E; cbn [competitor_specs with_codes] in *; [exact E|].
  destruct (negb (bmem p players)); [discriminate|]. destruct (short_code i) as [c|]; [|discriminate]. cbn [bind].
  destruct (bmem p seen); [discriminate|]. destruct (competitor_specs players (S i) l (p :: seen)) as [tl|] eqn:Q; cbn [bind] in E; [|discriminate].
  rewrite (IH _ _ _ Q). cbn [bind]. exact E.
Qed.

Lemma pairs_up_nth rounds s : forall l i j a b, (i < j)%nat -> nth_error l i = Some a -> nth_error l j = Some b -> In (pair_up rounds s a b) (pairs_up rounds s l).
Proof.
  induction l as [|c l IH]; intros i j a b L I J; [destruct i; discriminate|]. destruct j as [|j]; [lia|]. cbn [nth_error] in J.
  cbn [pairs_up]. apply in_or_app. destruct i as [|i].
  - cbn [nth_error] in I. injection I as ->. left. apply in_map. exact (nth_error_In _ _ J).
  - right. exact (IH i j a b ltac:(lia) I J).
Qed.

Lemma find_in cf m : NoDup (map m_id (cf_matchups cf)) -> In m (cf_matchups cf) -> find_matchup cf (m_id m) = Some m.
Proof.
  intros ND I. unfold find_matchup. apply In_dget.
  - rewrite map_map. exact ND.
  - apply in_map_iff. exists m. split; [reflexivity|exact I].
Qed.

Lemma columns_proof t : forall l all tb,
  (forall a b, In a all -> In b l -> exists v, cross_cell t (fst (snd a)) (fst (snd b)) (fst a) (fst b) = Ok v) ->
  exists tb', cross_columns t all l tb = Ok tb' /\ tb_rows tb' = tb_rows tb /\
    tb_headings tb' = tb_headings tb ++ map (fun b => (str " " ++ fst (snd b), 1%nat)) l /\
    tb_columns tb' = tb_columns tb ++ repeat (mkCol ALeft 1) (List.length l) /\
    (forall r c, (c < List.length (tb_columns tb))%nat -> cell tb' r c = cell tb r c) /\
    (forall k r a b v, nth_error l k = Some b -> nth_error all r = Some a ->
       cross_cell t (fst (snd a)) (fst (snd b)) (fst a) (fst b) = Ok v -> cell tb' r (List.length (tb_columns tb) + k) = v).
Proof.
  induction l as [|[i2 c2] l IH]; intros all tb H.
  - exists tb. rewrite !app_nil_r. repeat split; try reflexivity. intros k r a b v X. destruct k; discriminate.
  - cbn [cross_columns]. unfold add_column. cbn [add_heading tb_columns tb_rows tb_headings tb_cells].
    assert (V : exists values, map_res (fun ic => cross_cell t (fst (snd ic)) (fst c2) (fst ic) i2) all = Ok values /\
              Forall2 (fun a v => cross_cell t (fst (snd a)) (fst c2) (fst a) i2 = Ok v) all values).
    { assert (HA : forall a, In a all -> exists v, cross_cell t (fst (snd a)) (fst c2) (fst a) i2 = Ok v) by (intros a A; apply (H a (i2, c2) A); left; reflexivity).
      clear -HA. induction all as [|a all IH]; [exists []; split; [reflexivity|constructor]|].
      destruct (HA a (or_introl eq_refl)) as (v & E). destruct IH as (vs & ES & F); [intros; apply HA; right; assumption|].
      exists (v :: vs). cbn [map_res]. rewrite E. cbn [bind]. rewrite ES. split; [reflexivity|constructor; assumption]. }
    destruct V as (values & EV & FV). rewrite EV. cbn [bind].
    set (tb1 := mkTable (tb_rows tb) (tb_headings tb ++ [(str " " ++ fst c2, 1%nat)]) (tb_columns tb ++ [mkCol ALeft 1]) (tb_cells tb)).
    set (n := List.length (tb_columns tb)).
    destruct (IH all (set_column_values tb1 n values)) as (tb' & E & R & HD & CO & OLD & NEW); [intros; apply H; [assumption|right; assumption]|].
    exists tb'. split; [exact E|]. split; [exact R|]. split; [|split].
    + rewrite HD. cbn [set_column_values tb_headings tb1]. rewrite <- app_assoc. reflexivity.
    + rewrite CO. cbn [set_column_values tb_columns tb1]. rewrite <- app_assoc. reflexivity.
    + cbn [set_column_values tb_columns tb1] in OLD, NEW. rewrite app_length in OLD, NEW. cbn [List.length] in OLD, NEW. fold n in OLD, NEW.
      split.
      * intros r c L. rewrite (OLD r c) by lia. apply (proj1 (C65_column_values tb1 n values r c)). lia.
      * intros k r a b v K A X. destruct k as [|k].
        -- cbn [nth_error] in K. injection K as <-. rewrite Nat.add_0_r, OLD by lia.
           apply (proj1 (proj2 (C65_column_values tb1 n values r n))). cbn [fst snd] in X.
           clear -FV A X. revert r A. induction FV as [|y w all values Y F IH]; intros [|r] A; try discriminate; cbn [nth_error] in *.
           ++ injection A as ->. congruence.
           ++ exact (IH r A).
        -- replace (n + S k)%nat with (n + 1 + k)%nat by lia. exact (NEW k r a b v K A X).
Qed.

Lemma enumerate_nth {A} (l : list A) k : nth_error (enumerate l) k = match nth_error l k with Some x => Some (k, x) | None => None end.
Proof.
  unfold enumerate. assert (G : forall (l : list A) s k, nth_error (combine (seq s (List.length l)) l) k = match nth_error l k with Some x => Some ((s + k)%nat, x) | None => None end).
  { clear. induction l as [|x l IH]; intros s k; [destruct k; reflexivity|]. cbn [List.length seq combine]. destruct k as [|k]; cbn [nth_error].
    - rewrite Nat.add_0_r. reflexivity.
    - rewrite IH. replace (S s + k)%nat with (s + S k)%nat by lia. reflexivity. }
  apply G.
Qed.

Lemma cross_cell_proof t players competitors rounds s cs : allplayall_config players competitors rounds s = Ok (t_config t) ->
  competitor_specs players 0 competitors [] = Ok cs ->
  forall i j ci pi cj pj, nth_error cs i = Some (ci, pi) -> nth_error cs j = Some (cj, pj) ->
  exists v, cross_cell t ci cj i j = Ok v /\
    (i = j -> v = []) /\
    (i <> j -> exists m a b ha hb, In m (cf_matchups (t_config t)) /\
        (m_player_1 m = pi /\ m_player_2 m = pj \/ m_player_1 m = pj /\ m_player_2 m = pi) /\
        points (won_by pi) (get_matchup_results t (m_id m)) ha /\ shows_half ha a /\
        points (won_by pj) (get_matchup_results t (m_id m)) hb /\ shows_half hb b /\
        v = a ++ str "-" ++ b).
Proof.
  intros AC EC i j ci pi cj pj I J. unfold cross_cell. destruct (Nat.eqb_spec i j) as [E|N].
  { exists []. split; [reflexivity|]. split; [reflexivity|congruence]. }
  destruct (allplayall_eq _ _ _ _ _ AC) as (cs' & s' & EC' & _ & ECF & _). assert (cs' = cs) by congruence. subst cs'.
  destruct (C27_covers_proof _ _ _ _ _ AC) as ((ND & _) & _).
  assert (SH : forall p rs, 0 <= 2 * count (won p) rs + count gr_jigo rs).
  { intros p rs. pose proof (count_nonneg (won p) rs). pose proof (count_nonneg gr_jigo rs). lia. }
  destruct (Nat.ltb_spec i j) as [L|L].
  - assert (M : In (pair_up rounds s' (ci, pi) (cj, pj)) (cf_matchups (t_config t))) by (rewrite ECF; exact (pairs_up_nth rounds s' cs i j _ _ L I J)).
    pose proof (find_in _ _ ND M) as FM. cbn [pair_up m_id fst] in FM. rewrite FM. eexists. split; [reflexivity|]. split; [congruence|]. intros _.
    exists (pair_up rounds s' (ci, pi) (cj, pj)). eexists. eexists. eexists. eexists. split; [exact M|]. split; [left; split; reflexivity|].
    split; [apply (points_count (won pi)); apply won_iff|]. split; [apply half_shown; apply SH|].
    split; [apply (points_count (won pj)); apply won_iff|]. split; [apply half_shown; apply SH|]. reflexivity.
  - assert (L' : (j < i)%nat) by lia.
    assert (M : In (pair_up rounds s' (cj, pj) (ci, pi)) (cf_matchups (t_config t))) by (rewrite ECF; exact (pairs_up_nth rounds s' cs j i _ _ L' J I)).
    pose proof (find_in _ _ ND M) as FM. cbn [pair_up m_id fst] in FM. rewrite FM. eexists. split; [reflexivity|]. split; [congruence|]. intros _.
    exists (pair_up rounds s' (cj, pj) (ci, pi)). eexists. eexists. eexists. eexists. split; [exact M|]. split; [right; split; reflexivity|].
    split; [apply (points_count (won pi)); apply won_iff|]. split; [apply half_shown; apply SH|].
    split; [apply (points_count (won pj)); apply won_iff|]. split; [apply half_shown; apply SH|]. reflexivity.
Qed.

Lemma cross_proof t players competitors rounds s cs : allplayall_config players competitors rounds s = Ok (t_config t) ->
  competitor_specs players 0 competitors [] = Ok cs ->
  exists tb, cross_table t cs = Ok tb /\ cross_says t cs tb.
Proof.
  intros AC EC. unfold cross_table, add_column. cbn [add_heading set_column_values new_table tb_columns tb_rows tb_headings tb_cells List.length app].
  match goal with |- context [cross_columns t (enumerate cs) (enumerate cs) ?x] => set (tb0 := x) end.
  pose proof (cross_cell_proof t players competitors rounds s cs AC EC) as CELL.
  assert (EN : forall a, In a (enumerate cs) -> nth_error cs (fst a) = Some (snd a)).
  { intros a A. apply In_nth_error in A. destruct A as (k & K). rewrite enumerate_nth in K. destruct (nth_error cs k) as [x|] eqn:X; [|discriminate].
    injection K as <-. exact X. }
  destruct (columns_proof t (enumerate cs) (enumerate cs) tb0) as (tb & E & R & HD & CO & OLD & NEW).
  { intros [i [ci pi]] [j [cj pj]] A B. apply EN in A, B. cbn [fst snd] in *. destruct (CELL i j ci pi cj pj A B) as (v & X & _). exists v. exact X. }
  assert (LE : List.length (enumerate cs) = List.length cs) by (unfold enumerate; rewrite combine_length, seq_length; lia).
  exists tb. split; [exact E|]. split; [|split; [|split]].
  - rewrite HD. f_equal. assert (G : map snd (enumerate cs) = cs).
    { unfold enumerate. generalize 0%nat as n. clear. induction cs as [|c l IH]; intros n; [reflexivity|]. cbn. rewrite IH. reflexivity. }
    rewrite <- G at 2. rewrite map_map. reflexivity.
  - rewrite CO, LE. reflexivity.
  - rewrite R. reflexivity.
  - intros i ci pi I. assert (N2 : List.length (tb_columns tb0) = 2%nat) by reflexivity. rewrite N2 in OLD, NEW.
    assert (C0 : forall r c v, (c < 2)%nat -> nth_error (if Nat.eqb c 0 then map fst cs else map snd cs) r = Some v -> cell tb0 r c = v).
    { intros r c v L X. unfold cell, tb0, set_column_values. cbn [add_heading tb_cells tb_columns tb_rows tb_headings List.length app]. rewrite !put_values_cell. rewrite Nat.sub_0_r.
      destruct c as [|[|c]]; [| |lia]; cbn [Nat.eqb andb Nat.leb] in *; rewrite X; reflexivity. }
    split; [rewrite OLD by lia; apply C0; [lia|]; cbn [Nat.eqb]; rewrite nth_error_map, I; reflexivity|].
    split; [rewrite OLD by lia; apply C0; [lia|]; cbn [Nat.eqb]; rewrite nth_error_map, I; reflexivity|].
    assert (CE : forall j cj pj v, nth_error cs j = Some (cj, pj) -> cross_cell t ci cj i j = Ok v -> cell tb i (2 + j) = v).
    { intros j cj pj v J X. apply (NEW j i (i, (ci, pi)) (j, (cj, pj)) v).
      - rewrite enumerate_nth, J. reflexivity.
      - rewrite enumerate_nth, I. reflexivity.
      - exact X. }
    split.
    + destruct (CELL i i ci pi ci pi I I) as (v & X & V & _). rewrite (CE i ci pi v I X). apply V. reflexivity.
    + intros j cj pj J N. destruct (CELL i j ci pi cj pj I J) as (v & X & _ & V). rewrite (CE j cj pj v J X). apply V. exact N.
Qed.

Lemma screen_proof t players competitors rounds s : allplayall_config players competitors rounds s = Ok (t_config t) ->
  (2 <= List.length competitors)%nat ->
  exists text, allplayall_screen_report t = Ok text /\ screen_says t competitors rounds text.
Proof.
  intros AC L2. unfold allplayall_screen_report.
  destruct (C27_covers_proof _ _ _ _ _ AC) as (_ & _ & -> & MS & _ & _).
  destruct (allplayall_eq _ _ _ _ _ AC) as (cs & s' & EC & _ & _ & _).
  destruct (competitor_specs_ok _ _ _ _ _ EC) as (ES & _ & _ & CODES).
  rewrite (C27_expected_proof _ _ _ _ _ AC L2). cbn [bind]. rewrite (with_codes_of _ _ _ _ _ EC). cbn [bind].
  destruct (cross_proof t _ _ _ _ cs AC EC) as (tb & ET & CS). rewrite ET. cbn [bind].
  assert (LC : List.length cs = List.length competitors) by (rewrite <- ES, map_length; reflexivity).
  destruct CS as (HD & CO & RO & CELLS).
  destruct (render_proof tb) as (lines & ER & RE).
  { split.
    - exists (Z.of_nat (List.length cs)). split; [exact RO|right; lia].
    - rewrite HD, CO, repeat_length. unfold covered. clear. induction cs as [|c cs IH]; cbn in *; lia. }
  { split.
    - rewrite CO. apply Forall_forall. intros c I. apply repeat_spec in I. subst c. split; [discriminate|cbn; lia].
    - unfold headings_span. rewrite HD. apply Forall_forall. intros h I. apply in_app_iff in I. destruct I as [[<-|[<-|[]]]|I]; [cbn; lia|cbn; lia|].
      apply in_map_iff in I. destruct I as (c & <- & _). cbn. lia. }
  rewrite ER. cbn [bind]. eexists. split; [reflexivity|].
  exists cs, tb, lines, (count_games_played t). split; [split; [exact ES|exact CODES]|].
  split; [split; [exact HD|split; [exact CO|split; [exact RO|exact CELLS]]]|]. split; [exact RE|]. split.
  - unfold games_played, count_games_played. clear. induction (t_results t) as [|kv d IH]; [reflexivity|]. cbn [map fold_right List.concat].
    rewrite app_length, Nat2Z.inj_add, IH. reflexivity.
  - rewrite ended_app. rewrite ended_join by (destruct RE as (? & ? & ? & ? & ? & _ & _ & _ & _ & _ & ->); discriminate).
    rewrite app_assoc. f_equal. unfold ended. cbn [map List.concat]. rewrite !app_nil_r. unfold say. f_equal. f_equal. f_equal. f_equal.
    destruct rounds as [k|]; [|reflexivity]. do 2 f_equal. apply sum_const. intros m M. destruct (MS m M) as (_ & _ & _ & -> & _). reflexivity.
Qed.

Lemma allplayall_proof code description t players competitors rounds s : allplayall_config players competitors rounds s = Ok (t_config t) ->
  (2 <= List.length competitors)%nat -> reportable t ->
  exists screen live descs, screen_says t competitors rounds screen /\ live_says (fun _ => None) t live /\ players_say t descs /\
    allplayall_short_report tie code description t =
      Ok (ended (describing (str "allplayall") code description) ++ screen ++ [char_lf] ++ live ++ [char_lf] ++ descs ++ [char_lf]).
Proof.
  intros AC L2 [R1 _]. unfold allplayall_short_report.
  destruct (screen_proof t _ _ _ _ AC L2) as (screen & ES & SS). rewrite ES. cbn [bind].
  destruct (live_proof (fun _ => None) t (cf_matchups (t_config t)) true R1) as (parts & F & EP). rewrite EP. cbn [bind].
  exists screen. eexists. eexists. split; [exact SS|]. split; [exists parts; split; [exact F|reflexivity]|]. split; [apply descriptions_proof|].
  rewrite <- header_say. f_equal. rewrite <- !app_assoc. reflexivity.
Qed.
End Whole.
