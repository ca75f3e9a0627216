(** Proofs about the komi and handicap of a game state (C37, C63). *)
From Verif Require Import Base Bytes PyStr Dict BoardModel BoardSpec CommonModel CommonProofs SgfPropsModel SgfTreeModel SgfTreeSpec
  SgfMovesModel SgfMovesSpec GtpModel GtpStateModel GtpStateSpec.

Definition sane (st : gstate) : Prop :=
  (forall n, st_handicap st = Some n -> n <> 0 /\ n <> 1) /\
  (let (m, d) := st_komi st in - 625 * 10 ^ Z.of_nat d <= m <= 625 * 10 ^ Z.of_nat d).

Definition alike (st st' : gstate) : Prop := st_handicap st' = st_handicap st /\ st_komi st' = st_komi st.

Lemma alike_sane st st' : alike st st' -> sane st -> sane st'.
Proof. intros (A & B). unfold sane. rewrite A, B. auto. Qed.

Lemma alike_trans a b c : alike a b -> alike b c -> alike a c.
Proof. intros (A & B) (C & D). split; congruence. Qed.

Lemma reset_sane st : sane st -> sane (fst (reset st)).
Proof.
  intros S. unfold reset. destruct (new_board (st_size st)); [|exact S]. destruct S as (_ & K). split; [discriminate|exact K].
Qed.

Lemma reset_then_sane st r : sane st -> sane (fst (reset_then st r)).
Proof. intros S. apply reset_sane in S. unfold reset_then. destruct (reset st) as [st' [u|e]]; exact S. Qed.

Lemma play_moves_alike pick l : forall st ko pl, alike st (fst (play_moves pick st l ko pl)).
Proof.
  induction l as [|h l IH]; intros st ko pl; cbn [play_moves]; [split; reflexivity|].
  destruct (h_move h) as [[row col]|].
  - destruct (play pick (st_board st) row col (h_colour h)) as [b [k|e]].
    + exact (IH (with_board st b) k _).
    + split; reflexivity.
  - exact (IH (with_ko st None) ko pl).
Qed.

Lemma to_moves_alike pick st l : alike st (fst (reset_to_moves pick st l)).
Proof.
  unfold reset_to_moves. destruct (copy (st_base st)) as [b|e]; [|split; reflexivity].
  pose proof (play_moves_alike pick l (with_board st b) None None) as A. destruct (play_moves pick (with_board st b) l None None) as [st1 [[k p]|e]]; exact A.
Qed.

Lemma set_komi_sane st f : sane st -> sane (set_komi st f).
Proof.
  intros (H & _). destruct f as [m d]. unfold set_komi, sane. cbn [st_handicap with_komi st_komi]. split; [exact H|].
  destruct (Z.ltb_spec m (- (625 * 10 ^ Z.of_nat d))); [cbn; lia|]. destruct (Z.ltb_spec (625 * 10 ^ Z.of_nat d) m); [cbn; lia|]. lia.
Qed.

Lemma get_or_sane {A} st (r : gres A) k : sane st -> (forall a, r = GOk a -> sane (fst (k a))) -> sane (fst (get_or st r k)).
Proof. intros S H. destruct r; cbn [get_or]; auto. Qed.

Lemma handicap_sane st st' n : sane st -> st_handicap st' = Some n -> st_komi st' = st_komi st -> 2 <= n -> sane st'.
Proof. intros (_ & K) H E N. split; [|rewrite E; exact K]. intros m E'. assert (m = n) by congruence. lia. Qed.

Lemma get_handicap_sane w g h : get_handicap w g = Ok h -> forall n, h = Some n -> n <> 0 /\ n <> 1.
Proof.
  unfold get_handicap. intros E n ->.
  repeat match type of E with
         | context [match ?x with _ => _ end] => destruct x eqn:?; try discriminate E
         end; injection E as <-; lia.
Qed.

Lemma handle_sane env c st args : sane st -> sane (fst (handle env c st args)).
Proof.
  intros S. destruct c; cbn [handle].
  - apply get_or_sane; [exact S|]. intros n _. destruct (negb _); [exact S|]. apply reset_then_sane. exact S.
  - apply reset_then_sane. exact S.
  - apply get_or_sane; [exact S|]. intros f _. apply set_komi_sane. exact S.
  - apply get_or_sane; [exact S|]. intros n _. destruct (negb _); [exact S|].
    destruct (handicap_points n (st_size st)) as [pts|e] eqn:E; [|destruct e; exact S]. apply handicap_points_ok in E as (_ & N & _).
    destruct (place_black _ _ _) as [b [u|e]]; [|exact S]. destruct (copy b); eapply (handicap_sane st); try reflexivity; try exact S; lia.
  - unfold handle_set_free_handicap. destruct (negb _) eqn:N; [exact S|]. destruct (negb (is_empty _)); [exact S|].
    destruct (place_vertices _ _ _ _) as [b []]; try (apply reset_then_sane; exact S). destruct (copy b); [|exact S].
    eapply (handicap_sane st); try reflexivity; try exact S. lia.
  - apply get_or_sane; [exact S|]. intros n _. cbv zeta. destruct (negb ((2 <=? n) && _)) eqn:N; [exact S|]. destruct (negb (is_empty _)); [exact S|].
    set (n' := if n =? _ then _ else _). destruct (choose_free_handicap_moves st n') as [ms|e] eqn:E; [|exact S].
    assert (2 <= n') as N2.
    { unfold choose_free_handicap_moves in E. destruct (max_fixed_handicap (st_size st)) as [m|]; [|discriminate].
      cbn [bind] in E. apply handicap_points_ok in E. lia. }
    clearbody n'. destruct (n' <? _); [apply reset_then_sane; exact S|].
    destruct (place_black _ _ _) as [b [u|[]]]; try (apply reset_then_sane; exact S).
    destruct (copy b); eapply (handicap_sane st); try reflexivity; try exact S; lia.
  - unfold handle_play. destruct args as [|a [|v args]]; [exact S|exact S|]. apply get_or_sane; [exact S|]. intros co _.
    apply get_or_sane; [exact S|]. intros [[row col]|] _; [|exact S]. destruct (play _ _ _ _ _) as [b [k|[]]]; exact S.
  - unfold handle_genmove, handle_genmove_common. apply get_or_sane; [exact S|]. intros co _. destruct (env_gen env _ _) as [g|]; [|exact S].
    destruct (_ && gen_claim g); [exact S|]. destruct (gen_resign g); [exact S|]. destruct (gen_pass g); [exact S|]. destruct (gen_move g) as [[row col]|]; [|exact S].
    destruct (format_vertex _); [|exact S]. destruct (play _ _ _ _ _) as [b [k|[]]]; exact S.
  - unfold handle_genmove_ex. destruct args as [|a args]; [exact S|]. unfold handle_genmove_common. apply get_or_sane; [exact S|]. intros co _. destruct (env_gen env _ _) as [g|]; [|exact S].
    destruct (_ && gen_claim g); [exact S|]. destruct (gen_resign g); [exact S|]. destruct (gen_pass g); [exact S|]. destruct (gen_move g) as [[row col]|]; [|exact S].
    destruct (format_vertex _); [|exact S]. destruct (play _ _ _ _ _) as [b [k|[]]]; exact S.
  - unfold handle_reg_genmove, handle_genmove_common. apply get_or_sane; [exact S|]. intros co _. destruct (env_gen env _ _) as [g|]; [|exact S].
    destruct (_ && gen_claim g); [exact S|]. destruct (gen_resign g); [exact S|]. destruct (gen_pass g); [exact S|]. destruct (gen_move g) as [[row col]|]; [|exact S].
    destruct (format_vertex _); exact S.
  - unfold handle_undo. destruct (st_history st); [exact S|]. match goal with |- context [reset_to_moves ?p ?s ?l] => pose proof (to_moves_alike p s l) as A; destruct (reset_to_moves p s l) as [st' [u|[]]] end;
      (eapply alike_sane; [exact A|exact S]).
  - exact S.
  - unfold handle_loadsgf. destruct args as [|path rest]; [exact S|]. apply get_or_sane; [exact S|]. intros num _.
    destruct (env_files env path) as [[text e]|]; [|exact S]. apply get_or_sane; [exact S|]. intros [size contents] RF.
    destruct (negb _); [exact S|]. apply get_or_sane; [exact S|]. intros [[[komi handicap] b] plays] RC. cbv zeta.
    match goal with |- context [reset_to_moves ?p ?s ?l] => pose proof (to_moves_alike p s l) as A; destruct (reset_to_moves p s l) as [st2 [u|ex]] end; cbn [fst] in A.
    + cbn [fst]. assert (sane (set_komi st2 komi)) as (_ & K) by (apply set_komi_sane; eapply alike_sane; [exact A|exact S]).
      split; [|exact K]. cbn [with_handicap st_handicap]. intros n ->.
      subst contents. unfold read_file in RF. destruct (load_string _ _ _ _) as [w [u'|[]]]; try discriminate. destruct (game_at w 0) as [g|]; [|discriminate].
      injection RF as _ RF. destruct (match get_komi w g with Ok k => _ | Err _ => _ end); try discriminate. cbn [gbind] in RF.
      destruct (get_handicap w g) as [h|[]] eqn:GH; try discriminate; cbn [gbind] in RF.
      * eapply get_handicap_sane; [exact GH|]. match type of RF with (let (o, r) := ?x in _) = _ => destruct x as [[b'|] [pl|[]]] end; try discriminate. injection RF as _ RF _ _. exact RF.
      * match type of RF with (let (o, r) := ?x in _) = _ => destruct x as [[b'|] [pl|[]]] end; try discriminate.
    + assert (sane st2) as S2 by (eapply alike_sane; [exact A|exact S]).
      destruct ex; try exact S2.
      match goal with |- context [reset_to_moves ?p ?s ?l] => pose proof (to_moves_alike p s l) as A3; destruct (reset_to_moves p s l) as [st3 [u|[]]] end;
        (eapply alike_sane; [exact A3|exact S2]).
  - exact S.
  - apply get_or_sane; [exact S|]. intros co _. apply get_or_sane; [exact S|]. intros t _. apply get_or_sane; [exact S|]. intros n _. exact S.
  - apply get_or_sane; [exact S|]. intros co _. apply get_or_sane; [exact S|]. intros t _. apply get_or_sane; [exact S|]. intros n _. exact S.
Qed.

Lemma new_sane sizes st : new_state sizes = Ok st -> sane st.
Proof.
  unfold new_state. destruct (py_min _); [|discriminate]. cbn [bind]. destruct (new_board _); [|discriminate]. cbn [bind].
  intros E. injection E as <-. split; [discriminate|cbn; lia].
Qed.

Lemma any_sane st : served_any st -> sane st.
Proof.
  induction 1 as [sizes st E|env c args st st' r S IH E]; [eapply new_sane; eauto|].
  pose proof (handle_sane env c st args IH) as H. rewrite E in H. exact H.
Qed.

Lemma served_sane st : served st -> sane st.
Proof.
  induction 1 as [sizes st E|env c args st st' r S IH E _|env c args st st' S E _]; [eapply new_sane; eauto| |].
  - pose proof (handle_sane env c st args IH) as H. rewrite E in H. exact H.
  - pose proof (handle_sane env c st args (any_sane _ S)) as H. rewrite E in H. exact H.
Qed.
