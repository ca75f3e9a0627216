(** Proofs about the state of a GTP engine: replaying moves and placing handicap stones. *)
From Verif Require Import Base Bytes PyStr BoardModel BoardSpec BoardProofs BoardPlayProofs BoardMainProofs
  CommonModel CommonSpec CommonProofs SgfPropsModel SgfTreeModel SgfMovesModel GtpModel GtpStateModel GtpStateSpec.
From Verif Require GameplayProofs.

Lemma same_on_refl s a : same_on s a a.
Proof. intros p _. reflexivity. Qed.

Lemma replays_ext s p l p' : replays s p l p' -> forall q q', same_on s p q -> same_on s p' q' -> replays s q l q'.
Proof.
  induction 1 as [p p' H|p c l p' H IH|p c x p1 l p' O E M H IH]; intros q q' S S'.
  - apply rp_done. eapply same_on_trans; [|exact S']. eapply same_on_trans; [|exact H]. apply same_on_sym; auto.
  - apply rp_pass. auto.
  - apply rp_move with (p1 := p1); auto.
    + rewrite <- (S x O). exact E.
    + eapply go_move_ext; [exact S|apply same_on_refl|exact M].
    + apply IH; auto. apply same_on_refl.
Qed.

Lemma replays_fun s p l a : replays s p l a -> forall b, replays s p l b -> same_on s a b.
Proof.
  induction 1 as [p p' H|p c l p' H IH|p c x p1 l p' O E M H IH]; intros b B.
  - inversion B; subst. eapply same_on_trans; [|eassumption]. apply same_on_sym. exact H.
  - inversion B; subst. auto.
  - inversion B as [| |? ? ? p2 ? ? O2 E2 M2 B2]; subst. apply IH.
    eapply replays_ext; [exact B2| |apply same_on_refl]. eapply go_move_det; eauto.
Qed.

Lemma replays_app s p l q : replays s p l q -> forall l' r, replays s q l' r -> replays s p (l ++ l') r.
Proof.
  induction 1 as [p p' H|p c l p' H IH|p c x p1 l p' O E M H IH]; intros l' r R; cbn [app].
  - eapply replays_ext; [exact R|apply same_on_sym; exact H|apply same_on_refl].
  - apply rp_pass. auto.
  - eapply rp_move; eauto.
Qed.

Lemma replays_app_inv s l l' : forall p r, replays s p (l ++ l') r -> exists q, replays s p l q /\ replays s q l' r.
Proof.
  induction l as [|[c m] l IH]; intros p r H.
  - exists p. split; [apply rp_done, same_on_refl|exact H].
  - cbn [app] in H. inversion H as [|? ? ? ? H1|? ? x p1 ? ? O E M H1]; subst.
    + destruct (IH _ _ H1) as (q & A & B). exists q. split; [apply rp_pass|]; auto.
    + destruct (IH _ _ H1) as (q & A & B). exists q. split; [eapply rp_move; eauto|auto].
Qed.

Lemma reachable_ext s b b' : reachable s b -> reachable s b' -> same_on s (view b) (view b') -> b = b'.
Proof.
  intros R R' H. destruct (reachable_good s b R) as [G E], (reachable_good s b' R') as [G' E'].
  apply good_ext; auto; [congruence|]. rewrite E. exact H.
Qed.

Lemma play_cases pick s b p c : reachable s b ->
  (on_board s p /\ view b p = None /\ exists b' ko, play pick b (fst p) (snd p) c = (b', Ok ko) /\
     reachable s b' /\ go_move s (view b) p c (view b') /\
     (forall k, ko = Some k <-> simple_ko s (view b) p c (view b') k)) \/
  (on_board s p /\ view b p <> None /\ play pick b (fst p) (snd p) c = (b, Err ValueError)) \/
  (~ on_board s p /\ play pick b (fst p) (snd p) c = (b, Err IndexError)).
Proof. exact (GameplayProofs.play_cases pick s b p c). Qed.

(** ** Replaying *)

Definition mv (h : hmove) : colour * gmove := (h_colour h, h_move h).

(** What the locals of [reset_to_moves] hold after the moves [l]: nothing if there is only
    passes, else the simple ko of the last stone. *)
Definition ko_local (s : Z) (base : position) (l : list (colour * gmove)) (ko : option point) (pl : option colour) : Prop :=
  (Forall (fun cm => snd cm = None) l /\ ko = None /\ pl = None) \/
  exists l1 c q passes, l = l1 ++ (c, Some q) :: passes /\ Forall (fun cm => snd cm = None) passes /\
    pl = Some (opponent_of c) /\ forall k, ko = Some k <-> ko_after s base l1 c q k.

Lemma ko_after_move s base l p q c p' : on_board s q -> replays s base l p -> go_move s p q c p' ->
  forall k, simple_ko s p q c p' k <-> ko_after s base l c q k.
Proof.
  intros Oq R M k. split.
  - intros K. exists p, p'. auto.
  - intros (p2 & p2' & R2 & M2 & K).
    assert (same_on s p2 p) as S by (eapply replays_fun; eauto).
    eapply simple_ko_ext; [exact Oq|exact S| |exact K].
    eapply go_move_det; [|exact M]. eapply go_move_ext; [exact S|apply same_on_refl|exact M2].
Qed.

Lemma play_moves_spec pick s base : forall l st l0 ko pl,
  reachable s (st_board st) -> replays s base l0 (view (st_board st)) -> ko_local s base l0 ko pl ->
  Forall (fun h => forall p, h_move h = Some p -> on_board s p) l ->
  match play_moves pick st l ko pl with
  | (st1, Ok (ko', pl')) =>
      reachable s (st_board st1) /\ replays s base (l0 ++ map mv l) (view (st_board st1)) /\
      ko_local s base (l0 ++ map mv l) ko' pl' /\ info_of st1 = info_of st
  | (st1, Err e) => e = ValueError /\ info_of st1 = info_of st /\ reachable s (st_board st1) /\
      forall p', ~ replays s base (l0 ++ map mv l) p'
  end.
Proof.
  induction l as [|h l IH]; intros st l0 ko pl Rb Rp K F; cbn [play_moves map].
  - rewrite app_nil_r. auto.
  - inversion F as [|? ? Fh Fl]; subst. destruct (h_move h) as [[row col]|] eqn:Hm.
    + specialize (Fh _ eq_refl).
      destruct (play_cases pick s (st_board st) (row, col) (h_colour h) Rb)
        as [(O & V & b' & ko' & E & Rb' & M & KO)|[(O & V & E)|(O & _)]]; [| |contradiction]; cbn [fst snd] in E; rewrite E.
      * specialize (IH (with_board st b') (l0 ++ [mv h]) ko' (Some (opponent_of (h_colour h)))).
        rewrite <- app_assoc in IH. cbn [app] in IH. apply IH; auto.
        -- cbn [with_board st_board]. eapply replays_app; [exact Rp|]. unfold mv. rewrite Hm.
           eapply rp_move; eauto. apply rp_done, same_on_refl.
        -- right. exists l0, (h_colour h), (row, col), []. unfold mv. rewrite Hm. split; [reflexivity|]. split; [constructor|].
           split; [reflexivity|]. intros k. rewrite KO. eapply ko_after_move; eauto.
      * cbn [with_board info_of st_board]. split; [reflexivity|]. split; [reflexivity|]. split; [exact Rb|].
        intros p' R. apply replays_app_inv in R. destruct R as (q & R1 & R2).
        unfold mv in R2. rewrite Hm in R2. inversion R2 as [| |? ? ? ? ? ? ? V2]; subst.
        pose proof (replays_fun _ _ _ _ Rp _ R1 (row, col) O) as S. congruence.
    + specialize (IH (with_ko st None) (l0 ++ [mv h]) ko pl).
      rewrite <- app_assoc in IH. cbn [app] in IH. apply IH; auto.
      * eapply replays_app; [exact Rp|]. unfold mv. rewrite Hm. apply rp_pass, rp_done, same_on_refl.
      * unfold mv. rewrite Hm. destruct K as [(A & B & C)|(l1 & c & q & ps & -> & A & B & C)].
        -- left. split; auto. apply Forall_app. auto.
        -- right. exists l1, c, q, (ps ++ [(h_colour h, None)]). rewrite <- app_assoc. cbn [app]. split; [reflexivity|].
           split; [apply Forall_app; auto|]. auto.
Qed.

Lemma reset_to_moves_spec pick s st l : reachable s (st_base st) ->
  Forall (fun h => forall p, h_move h = Some p -> on_board s p) l ->
  match reset_to_moves pick st l with
  | (st1, Ok _) =>
      reachable s (st_board st1) /\ replays s (view (st_base st)) (map mv l) (view (st_board st1)) /\
      ko_local s (view (st_base st)) (map mv l) (st_ko st1) (st_ko_player st1) /\
      info_of st1 = info_of (with_history st l)
  | (st1, Err e) => e = ValueError /\ info_of st1 = info_of st /\
      forall p', ~ replays s (view (st_base st)) (map mv l) p'
  end.
Proof.
  intros R F. unfold reset_to_moves. rewrite (copy_proof s) by exact R.
  pose proof (play_moves_spec pick s (view (st_base st)) l (with_board st (st_base st)) [] None None) as H.
  cbn [with_board st_board] in H. specialize (H R (rp_done _ _ _ (same_on_refl _ _))).
  assert (ko_local s (view (st_base st)) [] None None) as K0 by (left; auto).
  specialize (H K0 F). fold (with_board st (st_base st)) in H.
  destruct (play_moves pick (with_board st (st_base st)) l None None) as [st1 [[ko pl]|e]].
  - destruct H as (A & B & C & D). split; [exact A|]. split; [exact B|]. split; [exact C|].
    unfold info_of in *. cbn [with_history with_ko_player with_ko with_board st_sizes st_size st_base st_history st_handicap st_komi
      st_time_settings st_time_b st_time_w] in *. congruence.
  - destruct H as (A & B & C & D). split; [exact A|]. split; [exact B|exact D].
Qed.

(** The points of a history that can be replayed are on the board. *)
Lemma replays_on_board s p l p' : replays s p l p' -> Forall (fun cm => forall q, snd cm = Some q -> on_board s q) l.
Proof.
  induction 1; constructor; auto; cbn [snd]; intros y Hy; [discriminate|]. injection Hy as <-. auto.
Qed.

Lemma history_on_board s p l p' : replays s p (map mv l) p' ->
  Forall (fun h => forall q, h_move h = Some q -> on_board s q) l.
Proof.
  intros H. apply replays_on_board in H. rewrite Forall_map in H. exact H.
Qed.

(** ** Black stones on an empty board *)

Definition black_only (s : Z) (pos : position) : Prop := forall p, on_board s p -> pos p = None \/ pos p = Some Black.

Lemma black_legal s pos e : black_only s pos -> on_board s e -> pos e = None -> legal s pos.
Proof.
  intros B Oe Ee p Op Np. destruct (lib_dec s pos p Op Np) as [L|L]; [exact L|]. exfalso.
  assert (pos p = Some Black) as Pp by (destruct (B p Op); congruence).
  assert (connected s pos p e /\ pos e = pos p) as [_ X]; [|congruence].
  apply (grid_closed s (fun x => connected s pos p x /\ pos x = pos p) p e); auto.
  - intros x y Ox [C E] A Oy. destruct (B y Oy) as [Y|Y].
    + exfalso. apply L. exists x, y. auto.
    + split; [|congruence]. eapply conn_step; eauto. congruence.
  - split; [apply conn_refl|reflexivity].
Qed.

Lemma black_move s pos p pos' e : black_only s pos -> on_board s p -> on_board s e -> e <> p -> pos e = None ->
  go_move s pos p Black pos' -> same_on s pos' (place pos p (Some Black)).
Proof.
  intros B Op Oe Ne Ee (pos2 & C1 & C2).
  assert (black_only s (place pos p (Some Black))) as B1.
  { intros q Oq. unfold place. destruct (point_eqb p q); auto. }
  assert (place pos p (Some Black) e = None) as E1.
  { unfold place. destruct (point_eqb_spec p e); congruence. }
  assert (same_on s pos2 (place pos p (Some Black))) as S2.
  { intros q Oq. destruct (C1 q Oq) as [_ K]. apply K. intros [W _].
    destruct (B1 q Oq) as [X|X]; cbn [opponent_of] in W; congruence. }
  assert (legal s pos2) as L2.
  { eapply legal_ext; [apply same_on_sym; exact S2|]. eapply black_legal; eauto. }
  intros q Oq. destruct (C2 q Oq) as [_ K]. rewrite K; [apply S2; auto|].
  intros [W N]. apply N, L2; auto. congruence.
Qed.

Lemma place_black_spec pick s e : forall pts b, reachable s b -> black_only s (view b) ->
  NoDup pts -> Forall (on_board s) pts -> Forall (fun p => view b p = None) pts ->
  on_board s e -> ~ In e pts -> view b e = None ->
  exists b', place_black pick b pts = (b', Ok tt) /\ reachable s b' /\
    forall p, on_board s p -> view b' p = if mem_point p pts then Some Black else view b p.
Proof.
  induction pts as [|q pts IH]; intros b R B ND F FE Oe Ne Ee.
  - exists b. split; [reflexivity|]. split; [exact R|]. reflexivity.
  - inversion ND; subst. inversion F; subst. inversion FE; subst. cbn [place_black]. destruct q as [row col].
    destruct (play_cases pick s b (row, col) Black R)
      as [(O & V & b' & ko & E & R' & M & _)|[(O & V & E)|(O & _)]]; [|contradiction|contradiction].
    cbn [fst snd] in E. rewrite E.
    assert (e <> (row, col)) as NE by (intros ->; apply Ne; left; reflexivity).
    pose proof (black_move s _ _ _ e B O Oe NE Ee M) as S.
    destruct (IH b') as (b2 & E2 & R2 & V2); auto.
    + intros p Op. rewrite (S p Op). unfold place. destruct (point_eqb (row, col) p); auto.
    + rewrite Forall_forall in *. intros p Hp. rewrite (S p) by auto. unfold place.
      destruct (point_eqb_spec (row, col) p); [subst; contradiction|auto].
    + intros I. apply Ne. right. exact I.
    + rewrite (S e Oe). unfold place. destruct (point_eqb_spec (row, col) e); [congruence|exact Ee].
    + exists b2. split; [exact E2|]. split; [exact R2|]. intros p Op. rewrite (V2 p Op).
      cbn [mem_point existsb]. rewrite (S p Op). unfold place.
      replace (point_eqb p (row, col)) with (point_eqb (row, col) p)
        by (destruct (point_eqb_spec (row, col) p), (point_eqb_spec p (row, col)); congruence).
      unfold mem_point. destruct (point_eqb (row, col) p); cbn [orb]; [destruct (existsb (point_eqb p) pts)|]; reflexivity.
Qed.

(** A list shorter than the board leaves a point out. *)
Lemma point_left s pts : 0 <= s -> Z.of_nat (List.length pts) <= s * s - 1 -> exists e, on_board s e /\ ~ In e pts.
Proof.
  intros H L.
  destruct (List.Forall_Exists_dec (fun p => In p pts)
        (fun p => in_dec (fun a b => Bool.reflect_dec _ _ (point_eqb_spec a b)) p pts) (board_points s)) as [A|A].
  - exfalso. assert (incl (board_points s) pts) as I by (intros p Hp; rewrite Forall_forall in A; auto).
    pose proof (NoDup_incl_length (NoDup_board_points s) I). pose proof (board_points_length s H). lia.
  - apply Exists_exists in A. destruct A as (p & Hp & Np). exists p. split; [apply In_board_points; exact Hp|exact Np].
Qed.

Lemma empty_black s b : reachable s b -> is_empty b = true -> black_only s (view b) /\ forall p, on_board s p -> view b p = None.
Proof.
  intros R E. destruct (C02_proof s b R) as (_ & _ & H). pose proof (proj1 H E) as E2. split; [|exact E2].
  intros p Op. left. auto.
Qed.
