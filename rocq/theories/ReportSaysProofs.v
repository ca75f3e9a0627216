From Coq Require Import QArith Lqa Permutation.
From Verif Require Import Base Bytes PyStr Dict CommonModel SgfPropsModel SgfValueProofs SchedModel GtpModel GameplayModel GameplaySpec GameplayResultProofs TournModel
  TableModel TableSpec TableProofs TableMainProofs TableReadProofs ReportModel ReportSpec ReportTextProofs ReportTableProofs.
Open Scope Z_scope.

Lemma single s : s <> [] -> Forall (fun c => ~ white c) s -> split_ws s = [s].
Proof. intros A B. rewrite <- (app_nil_r s) at 1. rewrite split_ws_word'; [reflexivity|exact A|exact B|discriminate]. Qed.
Lemma single_text s : s <> [] /\ Forall text_char s -> split_ws s = [s].
Proof. intros [A B]. apply single; [exact A|]. eapply Forall_impl; [|exact B]. intros c. apply text_char_black. Qed.

(** ** What the counts are *)
Definition won (p : bytes) (r : game_result) : bool := option_bytes_eqb (gr_winning_player r) p.
Definition won_as (c : colour) (r : game_result) : bool := option_colour_eqb (gr_winner r) c.
Definition seat (c : colour) (r : game_result) : bytes := match c with Black => gr_player_b r | White => gr_player_w r end.

Lemma won_iff p r : won p r = true <-> won_by p r.
Proof.
  unfold won, won_by, option_bytes_eqb. destruct (gr_winning_player r) as [x|]; [|split; discriminate].
  destruct (bytes_eqb_spec x p) as [->|N]; split; congruence.
Qed.
Lemma won_as_iff c r : won_as c r = true <-> won_with c r.
Proof.
  unfold won_as, won_with, option_colour_eqb. destruct (gr_winner r) as [x|]; [|split; discriminate].
  destruct x, c; cbn; split; congruence.
Qed.
Lemma seat_iff c p r : bytes_eqb (seat c r) p = true <-> plays c p r.
Proof. unfold seat, plays. destruct c; match goal with |- bytes_eqb ?a ?b = true <-> _ => destruct (bytes_eqb_spec a b) end; split; congruence. Qed.

Lemma points_count (f : game_result -> bool) F rs : (forall r, f r = true <-> F r) -> points F rs (2 * count f rs + count gr_jigo rs).
Proof.
  intros H. exists (count f rs), (count gr_jigo rs). split; [apply count_such; exact H|]. split; [apply count_such; intros r; reflexivity|reflexivity].
Qed.

Lemma count_zero {A} (f : A -> bool) l : count f l = 0 <-> forall x, In x l -> f x = false.
Proof.
  pose proof (count_pos f l) as P. pose proof (count_nonneg f l) as N. split.
  - intros E x I. destruct (f x) eqn:X; [|reflexivity]. assert (0 < count f l) by (apply P; exists x; auto). lia.
  - intros H. destruct (Z.eq_dec (count f l) 0) as [E|E]; [exact E|]. destruct (proj1 P ltac:(lia)) as (x & I & X). rewrite (H x I) in X. discriminate.
Qed.

Section Row.
Variable tie : Z -> Z -> bool.

Lemma half_of h : 0 <= h -> split_ws (format_half h) = [format_half h].
Proof. intros H. apply single_text. exact (half_word _ _ (half_shown h H)). Qed.
Lemma percent_of h n : 0 <= h -> 0 <= n -> split_ws (format_percent tie h n) = [format_percent tie h n].
Proof. intros H N. apply single_text. exact (percent_word _ _ _ (percent_shown tie h n H N)). Qed.
Lemma int_of n : 0 <= n -> split_ws (str_int n) = [str_int n].
Proof. intros H. apply single_text. exact (int_chars n H). Qed.
Lemma word_of p : word p -> split_ws p = [p].
Proof. intros [A B]. apply single; assumption. Qed.
Lemma colour_of c : split_ws (str "(" ++ colour_word c ++ str ")") = [str "(" ++ colour_word c ++ str ")"].
Proof. destruct c; reflexivity. Qed.

(** Cells that are words of their own. *)
Lemma words_alone l : Forall (fun s => split_ws s = [s]) l -> words_of l = l.
Proof. induction 1 as [|s l E F IH]; [reflexivity|]. unfold words_of in *. cbn [map List.concat]. rewrite E, IH. reflexivity. Qed.
Lemma words_app a b : words_of (a ++ b) = words_of a ++ words_of b.
Proof. unfold words_of. rewrite map_app, concat_app. reflexivity. Qed.

Lemma cell_pair (f g : game_result -> bool) F G rs : (forall r, f r = true <-> F r) -> (forall r, g r = true <-> G r) ->
  let h := 2 * count f rs + count gr_jigo rs in
  colour_says F G rs [format_half h; format_percent tie h (count g rs)] /\
  words_of [format_half h; format_percent tie h (count g rs)] = [format_half h; format_percent tie h (count g rs)].
Proof.
  intros HF HG h. pose proof (count_nonneg f rs). pose proof (count_nonneg g rs). pose proof (count_nonneg gr_jigo rs).
  assert (0 <= h) by (unfold h; lia). split.
  - exists h, (count g rs). eexists. eexists. split; [apply points_count; exact HF|]. split; [apply count_such; exact HG|].
    split; [apply half_shown; assumption|]. split; [apply percent_shown; assumption|]. reflexivity.
  - apply words_alone. constructor; [apply half_of; assumption|]. constructor; [apply percent_of; assumption|constructor].
Qed.

Lemma player_row p o rs (cc : list bytes) (fb tb : bool) a : word p ->
  ((both_colours p o rs /\
    cc = [format_half (2 * count (fun r => won p r && won_as Black r) rs + count gr_jigo rs);
          format_percent tie (2 * count (fun r => won p r && won_as Black r) rs + count gr_jigo rs) (count (fun r => bytes_eqb (seat Black r) p) rs);
          format_half (2 * count (fun r => won p r && won_as White r) rs + count gr_jigo rs);
          format_percent tie (2 * count (fun r => won p r && won_as White r) rs + count gr_jigo rs) (count (fun r => bytes_eqb (seat White r) p) rs)]) \/
   (~ both_colours p o rs /\ exists w, (forall r, In r rs -> ~ plays (opponent_of w) p r /\ ~ plays w o r) /\ cc = [str "(" ++ colour_word w ++ str ")"])) ->
  (fb = true <-> any_forfeit p o rs) -> (tb = true <-> any_time p o rs) ->
  (times_of p rs = [] /\ a = None \/ times_of p rs <> [] /\ exists n d, a = Some (n, d) /\ 0 < d /\
     (inject_Z n / inject_Z d == sum_of (times_of p rs) / inject_Z (Z.of_nat (List.length (times_of p rs))))%Q) ->
  player_says p o rs (words_of (
    [p; format_half (2 * count (won p) rs + count gr_jigo rs);
        format_percent tie (2 * count (won p) rs + count gr_jigo rs) (Z.of_nat (List.length rs))] ++ cc ++
    (if fb then [str_int (count (fun r => won o r && gr_forfeit r) rs)] else []) ++
    (if tb then [time_text tie a] else []))).
Proof.
  intros W HC HF HT HA.
  set (h := 2 * count (won p) rs + count gr_jigo rs).
  assert (HP : 0 <= h) by (unfold h; pose proof (count_nonneg (won p) rs); pose proof (count_nonneg gr_jigo rs); lia).
  rewrite !words_app.
  assert (E0 : words_of [p; format_half h; format_percent tie h (Z.of_nat (List.length rs))] = [p; format_half h; format_percent tie h (Z.of_nat (List.length rs))]).
  { apply words_alone. constructor; [apply word_of; exact W|]. constructor; [apply half_of; exact HP|]. constructor; [apply percent_of; lia|constructor]. }
  rewrite E0. clear E0.
  exists h, (format_half h), (format_percent tie h (Z.of_nat (List.length rs))).
  exists (words_of cc), (words_of (if fb then [str_int (count (fun r => won o r && gr_forfeit r) rs)] else [])),
         (words_of (if tb then [time_text tie a] else [])).
  split; [apply points_count; intros r; apply won_iff|].
  split; [apply half_shown; exact HP|]. split; [apply percent_shown; lia|].
  split; [|split; [|split; [|reflexivity]]].
  - destruct HC as [[B ->]|(B & w & P & ->)].
    + left. split; [exact B|].
      assert (HB : forall c r, won p r && won_as c r = true <-> won_by p r /\ won_with c r).
      { intros c r. rewrite andb_true_iff, won_iff, won_as_iff. reflexivity. }
      destruct (cell_pair (fun r => won p r && won_as Black r) (fun r => bytes_eqb (seat Black r) p) _ _ rs (HB Black) (seat_iff Black p)) as [S1 E1].
      destruct (cell_pair (fun r => won p r && won_as White r) (fun r => bytes_eqb (seat White r) p) _ _ rs (HB White) (seat_iff White p)) as [S2 E2].
      cbv zeta in S1, E1, S2, E2. eexists. eexists. split; [exact S1|]. split; [exact S2|].
      exact (eq_trans (words_app [_; _] [_; _]) (f_equal2 (@app bytes) E1 E2)).
    + right. split; [exact B|]. exists w. split; [exact P|]. rewrite words_alone by (constructor; [apply colour_of|constructor]). destruct w; reflexivity.
  - destruct fb.
    + left. split; [apply HF; reflexivity|]. eexists. split.
      * apply (count_such (fun r => won o r && gr_forfeit r)). intros r. rewrite andb_true_iff, won_iff. reflexivity.
      * apply words_alone. constructor; [apply int_of; apply count_nonneg|constructor].
    + right. split; [|reflexivity]. intros X. apply HF in X. discriminate.
  - destruct tb.
    + left. split; [apply HT; reflexivity|]. destruct (time_shown tie a _ HA) as (s & S & _ & _ & E). exists s. split; [exact S|].
      unfold words_of. cbn [map List.concat]. rewrite E. reflexivity.
    + right. split; [|reflexivity]. intros X. apply HT in X. discriminate.
Qed.

Lemma none_plays c p rs : count (fun r => bytes_eqb (seat c r) p) rs = 0 <-> forall r, In r rs -> ~ plays c p r.
Proof.
  rewrite count_zero. split; intros H r I.
  - intros P. apply seat_iff in P. rewrite (H r I) in P. discriminate.
  - destruct (bytes_eqb (seat c r) p) eqn:E; [|reflexivity]. apply seat_iff in E. destruct (H r I E).
Qed.
Lemma some_plays c p rs : count (fun r => bytes_eqb (seat c r) p) rs <> 0 <-> exists r, In r rs /\ plays c p r.
Proof.
  pose proof (count_pos (fun r => bytes_eqb (seat c r) p) rs) as P. pose proof (count_nonneg (fun r => bytes_eqb (seat c r) p) rs) as N. split.
  - intros H. destruct (proj1 P ltac:(lia)) as (r & I & E). apply seat_iff in E. exists r. auto.
  - intros (r & I & E). assert (0 < count (fun r => bytes_eqb (seat c r) p) rs) by (apply P; exists r; split; [exact I|apply seat_iff; exact E]). lia.
Qed.

Lemma both_swap p o rs : both_colours p o rs -> both_colours o p rs.
Proof. intros [(r & I & A) (s & J & B)]. split; [exists s|exists r]; tauto. Qed.
Lemma forfeit_swap p o rs : any_forfeit p o rs -> any_forfeit o p rs.
Proof. intros (r & I & F & A). exists r. tauto. Qed.
Lemma time_swap p o rs : any_time p o rs -> any_time o p rs.
Proof. unfold any_time. tauto. Qed.

(** ** The table *)
Lemma table_proof p1 p2 rs a1 a2 : word p1 -> word p2 -> has_times p1 rs -> has_times p2 rs ->
  average_time p1 rs = Ok a1 -> average_time p2 rs = Ok a2 ->
  exists t lines, stats_table tie (matchup_stats rs p1 p2) p1 p2 a1 a2 = Ok t /\ render t = Ok lines /\ table_says p1 p2 rs lines.
Proof.
  intros W1 W2 T1 T2 E1 E2.
  destruct (average_time_of p1 rs T1) as (x1 & X1 & TR1 & AV1). assert (x1 = a1) by congruence. subst x1. clear X1.
  destruct (average_time_of p2 rs T2) as (x2 & X2 & TR2 & AV2). assert (x2 = a2) by congruence. subst x2. clear X2.
  set (ms := matchup_stats rs p1 p2).
  assert (CB : (by_colour ms = None /\ ~ both_colours p1 p2 rs /\ exists c, colours ms = Some (c, opponent_of c) /\
                  (forall r, In r rs -> ~ plays (opponent_of c) p1 r /\ ~ plays c p2 r)) \/
               (by_colour ms <> None /\ both_colours p1 p2 rs)).
  { unfold ms, matchup_stats. cbn [by_colour colours].
    pose proof (none_plays White p1 rs) as N1w. pose proof (none_plays Black p2 rs) as N2b.
    pose proof (none_plays Black p1 rs) as N1b. pose proof (none_plays White p2 rs) as N2w.
    pose proof (some_plays White p1 rs) as S1w. pose proof (some_plays Black p2 rs) as S2b.
    pose proof (some_plays Black p1 rs) as S1b. pose proof (some_plays White p2 rs) as S2w. cbn [seat] in *.
    set (n1w := count (fun r => bytes_eqb (gr_player_w r) p1) rs) in *. set (n2b := count (fun r => bytes_eqb (gr_player_b r) p2) rs) in *.
    set (n1b := count (fun r => bytes_eqb (gr_player_b r) p1) rs) in *. set (n2w := count (fun r => bytes_eqb (gr_player_w r) p2) rs) in *.
    destruct ((n1w =? 0) && (n2b =? 0)) eqn:NB.
    - apply andb_true_iff in NB. destruct NB as [A B]. apply Z.eqb_eq in A, B. rewrite N1w in A. rewrite N2b in B. left. split; [reflexivity|]. split.
      + intros [_ (r & I & [X|X])]; [exact (A r I X)|exact (B r I X)].
      + exists Black. split; [reflexivity|]. intros r I. split; [exact (A r I)|exact (B r I)].
    - destruct ((n1b =? 0) && (n2w =? 0)) eqn:NW.
      + apply andb_true_iff in NW. destruct NW as [A B]. apply Z.eqb_eq in A, B. rewrite N1b in A. rewrite N2w in B. left. split; [reflexivity|]. split.
        * intros [(r & I & [X|X]) _]; [exact (A r I X)|exact (B r I X)].
        * exists White. split; [reflexivity|]. intros r I. split; [exact (A r I)|exact (B r I)].
      + right. split; [discriminate|]. apply andb_false_iff in NB, NW. rewrite !Z.eqb_neq in NB, NW. rewrite S1w, S2b in NB. rewrite S1b, S2w in NW. split.
        * destruct NW as [(r & I & X)|(r & I & X)]; exists r; split; try exact I; [left|right]; exact X.
        * destruct NB as [(r & I & X)|(r & I & X)]; exists r; split; try exact I; [left|right]; exact X. }
  assert (FF : forfeited ms = true <-> any_forfeit p1 p2 rs).
  { unfold forfeited, ms, matchup_stats. cbn [forfeits_1 forfeits_2]. rewrite orb_true_iff, !negb_true_iff, !Z.eqb_neq.
    pose proof (count_pos (fun r => won p2 r && gr_forfeit r) rs) as P2. pose proof (count_nonneg (fun r => won p2 r && gr_forfeit r) rs) as N2.
    pose proof (count_pos (fun r => won p1 r && gr_forfeit r) rs) as P1. pose proof (count_nonneg (fun r => won p1 r && gr_forfeit r) rs) as N1.
    change (fun r => option_bytes_eqb (gr_winning_player r) p2 && gr_forfeit r) with (fun r => won p2 r && gr_forfeit r).
    change (fun r => option_bytes_eqb (gr_winning_player r) p1 && gr_forfeit r) with (fun r => won p1 r && gr_forfeit r). split.
    - intros [X|X]; [destruct (proj1 P2 ltac:(lia)) as (r & I & E)|destruct (proj1 P1 ltac:(lia)) as (r & I & E)];
        apply andb_true_iff in E; destruct E as [E F]; apply won_iff in E; exists r; tauto.
    - intros (r & I & F & [X|X]); apply won_iff in X.
      + right. assert (0 < count (fun r => won p1 r && gr_forfeit r) rs) by (apply P1; exists r; split; [exact I|rewrite X, F; reflexivity]). lia.
      + left. assert (0 < count (fun r => won p2 r && gr_forfeit r) rs) by (apply P2; exists r; split; [exact I|rewrite X, F; reflexivity]). lia. }
  assert (TT : timed a1 a2 = true <-> any_time p1 p2 rs).
  { unfold timed, any_time. rewrite orb_true_iff, TR1, TR2. reflexivity. }
  destruct (table_shape tie ms p1 p2 a1 a2) as (t & ET & CO & PR & PAD & RO & TI & RW).
  { intros B. destruct CB as [(_ & _ & c & X & _)|[X _]]; congruence. }
  destruct (render_proof t CO PR) as (lines & ER & _).
  exists t, lines. split; [exact ET|]. split; [exact ER|].
  destruct (read_back t lines PAD ER) as (title & rows & EL & _ & M). subst lines. pose proof (title_read t title rows ER) as TR. rewrite TI in TR.
  rewrite RO in M. cbn [seq map] in M. rewrite (RW 0%nat), (RW 1%nat), (RW 2%nat) in M by lia.
  assert (P1S : player_says p1 p2 rs (words_of (row_cells tie ms p1 p2 a1 a2 0))).
  { apply (player_row p1 p2 rs (colour_cells tie ms 0) (forfeited ms) (timed a1 a2) a1 W1); [|exact FF|exact TT|exact AV1].
    unfold colour_cells. destruct CB as [(B & NB & c & CC & P)|[B BB]].
    - right. split; [exact NB|]. exists c. rewrite B, CC. split; [exact P|reflexivity].
    - left. split; [exact BB|]. revert B. unfold ms, matchup_stats. cbn [by_colour].
      match goal with |- context [if ?b then None else _] => destruct b end; [congruence|intros _; reflexivity]. }
  assert (P2S : player_says p2 p1 rs (words_of (row_cells tie ms p1 p2 a1 a2 1))).
  { apply (player_row p2 p1 rs (colour_cells tie ms 1) (forfeited ms) (timed a1 a2) a2 W2); [| | |exact AV2].
    - unfold colour_cells. destruct CB as [(B & NB & c & CC & P)|[B BB]].
      + right. split; [intros X; apply NB, both_swap; exact X|]. exists (opponent_of c). rewrite B, CC. split; [|reflexivity].
        intros r I. destruct (P r I) as [X Y]. destruct c; split; assumption.
      + left. split; [apply both_swap; exact BB|]. revert B. unfold ms, matchup_stats. cbn [by_colour].
        match goal with |- context [if ?b then None else _] => destruct b end; [congruence|intros _; reflexivity].
    - rewrite FF. split; apply forfeit_swap.
    - rewrite TT. split; apply time_swap. }
  assert (N0 : exists x y, words_of (row_cells tie ms p1 p2 a1 a2 0) = x :: y).
  { destruct P1S as (? & ? & ? & ? & ? & ? & _ & _ & _ & _ & _ & _ & ->). eauto. }
  assert (N1 : exists x y, words_of (row_cells tie ms p1 p2 a1 a2 1) = x :: y).
  { destruct P2S as (? & ? & ? & ? & ? & ? & _ & _ & _ & _ & _ & _ & ->). eauto. }
  assert (M' : map split_ws rows = words_of (row_cells tie ms p1 p2 a1 a2 0) :: words_of (row_cells tie ms p1 p2 a1 a2 1) ::
                 filter (fun l => match l with [] => false | _ => true end) [words_of (row_cells tie ms p1 p2 a1 a2 2)]).
  { rewrite M. destruct N0 as (x & y & ->). destruct N1 as (x' & y' & ->). reflexivity. }
  clear M. destruct rows as [|l1 [|l2 more]]; [discriminate|discriminate|]. cbn [map] in M'.
  injection M' as M1 M2 M3.
  exists title, l1, l2, more, (titles ms a1 a2), (words_of (row_cells tie ms p1 p2 a1 a2 0)), (words_of (row_cells tie ms p1 p2 a1 a2 1)).
  split; [reflexivity|]. split; [rewrite <- TR; apply reads_total|]. split.
  { unfold titles. exists (match by_colour ms with Some _ => [str "black"; str "white"] | None => [] end),
      (if forfeited ms then [str "forfeits"] else []), (if timed a1 a2 then [str "avg"; str "cpu"] else []). split; [|split; [|split; [|reflexivity]]].
    - destruct CB as [(B & NB & _)|[B BB]]; [right; rewrite B; split; [exact NB|reflexivity]|left; split; [exact BB|]].
      destruct (by_colour ms); [reflexivity|congruence].
    - destruct (forfeited ms); [left; split; [apply FF; reflexivity|reflexivity]|right; split; [|reflexivity]]. intros X. apply FF in X. discriminate.
    - destruct (timed a1 a2); [left; split; [apply TT; reflexivity|reflexivity]|right; split; [|reflexivity]]. intros X. apply TT in X. discriminate. }
  split; [rewrite <- M1; apply reads_total|]. split; [exact P1S|]. split; [rewrite <- M2; apply reads_total|]. split; [exact P2S|].
  destruct CB as [(B & NB & c & CC & P)|[B BB]].
  - right. split; [exact NB|].
    assert (Z0 : words_of (row_cells tie ms p1 p2 a1 a2 2) = []).
    { unfold row_cells, colour_cells. rewrite B, CC. destruct (forfeited ms), (timed a1 a2); reflexivity. }
    rewrite Z0 in M3. cbn [filter] in M3. destruct more; [reflexivity|discriminate].
  - left. split; [exact BB|].
    destruct (cell_pair (won_as Black) (fun _ => true) _ (fun _ => True) rs (won_as_iff Black) ltac:(tauto)) as [S1 Q1].
    destruct (cell_pair (won_as White) (fun _ => true) _ (fun _ => True) rs (won_as_iff White) ltac:(tauto)) as [S2 Q2].
    cbv zeta in S1, S2, Q1, Q2.
    assert (TOT : count (fun _ : game_result => true) rs = Z.of_nat (List.length rs)).
    { unfold count. f_equal. f_equal. clear. induction rs as [|r rs IH]; [reflexivity|]. cbn. rewrite IH. reflexivity. }
    rewrite TOT in S1, S2, Q1, Q2.
    match type of S1 with colour_says _ _ _ ?a => match type of S2 with colour_says _ _ _ ?b =>
      assert (Z0 : words_of (row_cells tie ms p1 p2 a1 a2 2) = a ++ b) end end.
    { refine (eq_trans _ (eq_trans (words_app [_; _] [_; _]) (f_equal2 (@app bytes) Q1 Q2))). unfold row_cells, colour_cells.
      assert (EF : (if forfeited ms then [] else []) ++ (if timed a1 a2 then [] else []) = ([] : list bytes)) by (destruct (forfeited ms), (timed a1 a2); reflexivity).
      rewrite EF, app_nil_r. cbn [app]. revert B. unfold ms, matchup_stats. cbn [by_colour].
      match goal with |- context [if ?b then None else _] => destruct b end; [congruence|intros _; reflexivity]. }
    rewrite Z0 in M3. cbn [app filter] in M3. destruct more as [|l3 [|l4 more]]; [discriminate| |discriminate].
    injection M3 as M3. exists l3. eexists. split; [reflexivity|]. split; [apply reads_total|].
    eexists. eexists. split; [exact S1|]. split; [exact S2|]. rewrite M3. reflexivity.
Qed.
End Row.
