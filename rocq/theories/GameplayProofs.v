(** Proofs about Game objects (C31). *)
From Coq Require Import QArith.
From Verif Require Import Base Bytes PyStr BoardModel BoardSpec BoardProofs BoardPlayProofs BoardMainProofs
  CommonModel CommonSpec CommonProofs SgfPropsModel GameplayModel GameplaySpec.
Open Scope Z_scope.

Lemma on_board_dec s p : on_board s p \/ ~ on_board s p.
Proof.
  unfold on_board. destruct (Z_le_dec 0 (fst p)), (Z_lt_dec (fst p) s), (Z_le_dec 0 (snd p)), (Z_lt_dec (snd p) s);
    try (left; lia); right; lia.
Qed.

Lemma play_cases pick s b p c : reachable s b ->
  (on_board s p /\ view b p = None /\ exists b' ko, play pick b (fst p) (snd p) c = (b', Ok ko) /\
     reachable s b' /\ go_move s (view b) p c (view b') /\
     (forall k, ko = Some k <-> simple_ko s (view b) p c (view b') k)) \/
  (on_board s p /\ view b p <> None /\ play pick b (fst p) (snd p) c = (b, Err ValueError)) \/
  (~ on_board s p /\ play pick b (fst p) (snd p) c = (b, Err IndexError)).
Proof.
  intros Rb. destruct p as [r col]; cbn [fst snd].
  destruct (C03_play_proof pick s b r col c Rb) as (HI & HV & HE).
  destruct (on_board_dec s (r, col)) as [O|O].
  - destruct (view b (r, col)) as [v|] eqn:V.
    + right; left. split; [exact O|]. split; [discriminate|].
      assert (snd (play pick b r col c) = Err ValueError) as E by (apply HV; split; [exact O|discriminate]).
      destruct (HE _ E) as [_ E2]. destruct (play pick b r col c); simpl in *; congruence.
    + left. split; [exact O|]. split; [reflexivity|].
      destruct (C01_proof pick s b (r, col) c Rb O V) as (b' & ko & E & M). cbn [fst snd] in E.
      exists b', ko. split; [exact E|]. split.
      * replace b' with (apply_op pick b (OpPlay r col c)) by (cbn [apply_op]; rewrite E; reflexivity).
        apply reach_op. exact Rb.
      * split; [exact M|]. exact (C04_proof pick s b (r, col) c b' ko Rb O V E).
  - right; right. split; [exact O|].
    assert (snd (play pick b r col c) = Err IndexError) as E by (apply HI; exact O).
    destruct (HE _ E) as [_ E2]. destruct (play pick b r col c); simpl in *; congruence.
Qed.

Lemma format_on_board s p : s <= 25 -> on_board s p -> exists v, format_vertex (Some p) = Ok v.
Proof.
  intros L [A B]. apply (format_vertex_ok (Some p)). unfold on_board. lia.
Qed.

Definition ko_ok (s : Z) (x : gstate) : Prop := forall p, s_ko (gs_sit x) = Some p -> on_board s p.

Lemma opoint_eqb_spec p k : reflect (k = Some p) (opoint_eqb p k).
Proof.
  destruct k as [q|]; simpl; [|constructor; discriminate].
  destruct (point_eqb_spec p q); constructor; congruence.
Qed.

Section Calls.
Context {E : Type}.
Variable cb : option (ggame -> E -> E * res unit).

(** What a call does to the environment: the callback is called exactly when the game ends. *)
Definition effect (x y : gstate) (out : option exn) (g' : ggame) (e e' : E) (r : res unit) : Prop :=
  match gs_end x, gs_end y with
  | None, Some _ => out = None /\ match cb with None => e' = e /\ r = Ok tt | Some f => (e', r) = f g' e end
  | _, _ => e' = e /\ r = match out with None => Ok tt | Some ex => Err ex end
  end.

Lemma set_over_eq g e g' e' r : set_over cb g e = (g', e', r) ->
  g' = mkGG (gm_board g) (gm_limit g) None (gm_moves g) (gm_passes g) None true
                 (gm_passed_out g) (gm_resigned g) (gm_claimed g) (gm_forfeited g) (gm_hit_limit g)
                 (gm_winner g) (gm_reason g) /\
  match cb with None => e' = e /\ r = Ok tt | Some f => (e', r) = f g' e end.
Proof.
  unfold set_over. destruct cb as [f|].
  - destruct (f _ e) as [e1 r1] eqn:F. intros H. injection H as <- <- <-. split; [reflexivity|].
    symmetry. exact F.
  - intros H. injection H as <- <- <-. auto.
Qed.

(** The end of [record_move]. *)
Lemma after_move_step s limit g e x c m y streak g' e' r :
  gs_end x = None -> s_turn (gs_sit x) = c ->
  legal_step s (gs_sit x) m y ->
  reachable s (gm_board g) -> view (gm_board g) = s_pos y -> gm_limit g = limit ->
  gm_moves g = Z.of_nat (List.length (s_moves (gs_sit x))) -> gm_passes g = Z.of_nat streak ->
  gm_ko g = s_ko y ->
  in_progress g ->
  after_move cb g e c = (g', e', r) ->
  exists en, after_step limit (Nat.eqb streak 2) (s_moves y) en /\
    shows s limit g' (mkGS y streak en) /\
    effect x (mkGS y streak en) None g' e e' r.
Proof.
  intros X T L Rb V Li Mo Pa Ko P A.
  assert (s_turn y = opponent_of c /\ List.length (s_moves y) = Datatypes.S (List.length (s_moves (gs_sit x)))) as [TY LY].
  { inversion L; subst; simpl; rewrite app_length; simpl; split; auto; lia. }
  assert (gm_moves g + 1 = Z.of_nat (List.length (s_moves y))) as MY by lia.
  destruct P as (P1 & P2 & P3 & P4 & P5 & P6 & P7 & P8).
  unfold after_move in A. cbn [gm_passes gm_limit gm_moves gm_board gm_ko gm_over gm_passed_out gm_resigned
    gm_claimed gm_forfeited gm_hit_limit gm_winner gm_reason gm_next] in A.
  destruct (Z.eqb_spec (gm_passes g) 2) as [E2|E2].
  - assert (streak = 2%nat) as -> by lia.
    apply set_over_eq in A. destruct A as [-> A].
    exists (Some PassedOut). split; [constructor; reflexivity|]. split.
    + unfold shows; cbn [gm_passes gm_limit gm_moves gm_board gm_ko gs_sit gs_streak gs_end].
      do 5 (split; [assumption || congruence|]).
      unfold reports; cbn. repeat split; auto.
    + unfold effect. rewrite X. cbn [gs_end]. auto.
  - assert (Nat.eqb streak 2 = false) as -> by (apply Nat.eqb_neq; lia).
    destruct (match gm_limit g with None => false | Some l => l <=? gm_moves g + 1 end) eqn:LI.
    + apply set_over_eq in A. destruct A as [-> A].
      exists (Some MoveLimit). split.
      { apply as_limit; [reflexivity|]. destruct (gm_limit g) as [l|] eqn:GL; [|discriminate].
        exists l. split; [congruence|]. apply Z.leb_le in LI. lia. }
      split.
      * unfold shows; cbn [gm_passes gm_limit gm_moves gm_board gm_ko gs_sit gs_streak gs_end].
        do 5 (split; [assumption || congruence|]).
        unfold reports; cbn. repeat split; auto.
      * unfold effect. rewrite X. cbn [gs_end]. auto.
    + injection A as <- <- <-. exists None. split.
      { apply as_continue; [reflexivity|]. intros (n & EN & LE). rewrite Li in LI. rewrite EN in LI.
        apply Z.leb_gt in LI. lia. }
      split.
      * unfold shows; cbn [gm_passes gm_limit gm_moves gm_board gm_ko gs_sit gs_streak gs_end gm_next].
        do 5 (split; [assumption || congruence|]).
        split; [|split; congruence]. unfold in_progress; cbn. repeat split; assumption.
      * unfold effect. rewrite X. cbn [gs_end]. auto.
Qed.

Lemma legal_step_ko s x m y : legal_step s x m y -> forall p, s_ko y = Some p -> on_board s p.
Proof.
  intros L p K. inversion L; subst; cbn [s_ko] in K; [discriminate|].
  match goal with H : forall k, _ <-> _ |- _ => apply H in K end. destruct K as [O _]. exact O.
Qed.

Lemma forfeit_eq g e c why g' e' r :
  in_progress g -> record_forfeit_by cb g e c why = (g', e', r) ->
  reports g' (Forfeited c why) /\ gm_next g' = None /\ gm_board g' = gm_board g /\ gm_limit g' = gm_limit g /\
  gm_moves g' = gm_moves g /\ gm_passes g' = gm_passes g /\
  match cb with None => e' = e /\ r = Ok tt | Some f => (e', r) = f g' e end.
Proof.
  intros (P1 & P2 & P3 & P4 & P5 & P6 & P7 & P8) H. unfold record_forfeit_by in H. rewrite P1 in H.
  apply set_over_eq in H. destruct H as [-> H]. unfold reports. cbn. repeat split; auto.
Qed.

Lemma call_step s limit pick g e x o g' e' r :
  s <= 25 -> shows s limit g x -> ko_ok s x -> call cb pick g e o = (g', e', r) ->
  exists y out, game_step s limit x o y out /\ shows s limit g' y /\ ko_ok s y /\ effect x y out g' e e' r.
Proof.
  intros S25 Sh Ko H.
  pose proof Sh as (Rb & V & Li & Mo & Pa & En).
  destruct (gs_end x) as [en|] eqn:X.
  { (* already over *)
    destruct En as [Re Nx]. assert (gm_over g = true) as O by (destruct Re; assumption).
    exists x, (Some GameStateError).
    assert (g' = g /\ e' = e /\ r = Err GameStateError) as (-> & -> & ->).
    { destruct o; cbn [call] in H; unfold record_move, record_resignation_by, record_claim_by, record_forfeit_by in H;
        rewrite O in H; injection H as <- <- <-; auto. }
    split; [apply gs_over; congruence|]. split; [exact Sh|]. split; [exact Ko|].
    unfold effect. rewrite X. auto. }
  destruct En as (P & Nx & KoE).
  pose proof P as (P1 & P2 & P3 & P4 & P5 & P6 & P7 & P8).
  destruct o as [c m|c|c|c why]; cbn [call] in H.
  - unfold record_move in H. rewrite P1, Nx in H.
    destruct (colour_eqb_spec c (s_turn (gs_sit x))) as [->|NC]; cbn [negb] in H.
    2:{ injection H as <- <- <-. exists x, (Some GameStateError). split; [apply gs_wrong_colour; assumption|].
        split; [exact Sh|]. split; [exact Ko|]. unfold effect. rewrite X. auto. }
    destruct m as [[row col]|].
    + set (p := (row, col)) in *.
      assert (forall b k, in_progress (with_position (with_position g (gm_board g) 0 (gm_ko g)) b 0 k)) as PI
        by (intros; unfold in_progress; cbn; repeat split; assumption).
      destruct (opoint_eqb_spec p (gm_ko g)) as [KE|KN].
      * (* the ko point *)
        destruct (format_on_board s p S25 (Ko p ltac:(congruence))) as (v & FV).
        change (Some (row, col)) with (Some p) in H. rewrite FV in H.
        apply forfeit_eq in H; [|unfold in_progress; cbn; repeat split; assumption].
        destruct H as (H1 & H2 & H3 & H4 & H5 & H6 & H7).
        eexists _, None. split; [apply gs_ko with (v := v); [exact X|congruence|exact FV]|].
        split.
        { unfold shows. cbn [gs_sit gs_streak gs_end]. rewrite H3, H4, H5, H6. cbn.
          do 5 (split; [assumption || reflexivity|]). split; assumption. }
        split; [exact Ko|]. unfold effect. rewrite X. cbn [gs_end]. auto.
      * destruct (play_cases pick s (gm_board g) p (s_turn (gs_sit x)) Rb)
          as [(O & VN & b' & ko & EP & Rb' & M & K)|[(O & VN & EP)|(O & EP)]];
          unfold p in EP; cbn [fst snd] in EP; rewrite EP in H.
        -- (* legal *)
           rewrite V in M, K.
           pose proof (ls_move s (gs_sit x) p (view b') ko) as LS.
           assert (playable s (gs_sit x) p) as PL.
           { split; [exact O|]. split; [rewrite <- V; exact VN|]. rewrite <- KoE. exact KN. }
           specialize (LS PL M K).
           eapply (after_move_step s limit) with (x := x) (streak := 0%nat) in H;
             [|exact X|reflexivity|exact LS|exact Rb'|reflexivity|exact Li|exact Mo|reflexivity|reflexivity|apply PI].
           destruct H as (en & A1 & A2 & A3). change (Nat.eqb 0 2) with false in A1.
           eexists _, None. split; [apply gs_move; eassumption|]. split; [exact A2|].
           split; [|exact A3]. unfold ko_ok. cbn [gs_sit]. apply (legal_step_ko _ _ _ _ LS).
        -- (* occupied *)
           destruct (format_on_board s p S25 O) as (v & FV).
           change (Some (row, col)) with (Some p) in H. rewrite FV in H.
           apply forfeit_eq in H; [|apply PI].
           destruct H as (H1 & H2 & H3 & H4 & H5 & H6 & H7).
           eexists _, None. split.
           { apply gs_occupied with (v := v); [exact X|exact O|congruence|congruence|exact FV]. }
           split.
           { unfold shows. cbn [gs_sit gs_streak gs_end]. rewrite H3, H4, H5, H6. cbn.
             do 5 (split; [assumption || reflexivity|]). split; assumption. }
           split; [exact Ko|]. unfold effect. rewrite X. cbn [gs_end]. auto.
        -- (* off the board *)
           injection H as <- <- <-. eexists _, (Some IndexError).
           split; [apply gs_off_board; [exact X|exact O|congruence]|]. split.
           { unfold shows. cbn [gs_sit gs_streak gs_end]. cbn.
             do 5 (split; [assumption || reflexivity|]). split; [apply PI|]. split; assumption. }
           split; [exact Ko|]. unfold effect. rewrite X. cbn [gs_end]. auto.
    + (* pass *)
      assert (Z.of_nat (Datatypes.S (gs_streak x)) = gm_passes g + 1) as PS by lia.
      pose proof (ls_pass s (gs_sit x)) as LS.
      eapply (after_move_step s limit) with (x := x) (streak := Datatypes.S (gs_streak x)) in H;
        [|exact X|reflexivity|exact LS|exact Rb|exact V|exact Li|exact Mo|symmetry; exact PS|reflexivity
         |unfold in_progress; cbn; repeat split; assumption].
      destruct H as (en & A1 & A2 & A3).
      eexists _, None. split; [apply gs_pass; eassumption|]. split; [exact A2|].
      split; [|exact A3]. unfold ko_ok. cbn [gs_sit s_ko]. discriminate.
  - unfold record_resignation_by in H. rewrite P1 in H. apply set_over_eq in H. destruct H as [-> H].
    eexists _, None. split; [apply gs_resign; exact X|]. split.
    { unfold shows. cbn. repeat (split; [assumption|]). split; [|reflexivity]. unfold reports. cbn. repeat split; auto. }
    split; [exact Ko|]. unfold effect. rewrite X. cbn [gs_end]. auto.
  - unfold record_claim_by in H. rewrite P1 in H. apply set_over_eq in H. destruct H as [-> H].
    eexists _, None. split; [apply gs_claim; exact X|]. split.
    { unfold shows. cbn. repeat (split; [assumption|]). split; [|reflexivity]. unfold reports. cbn. repeat split; auto. }
    split; [exact Ko|]. unfold effect. rewrite X. cbn [gs_end]. auto.
  - apply forfeit_eq in H; [|exact P].
    destruct H as (H1 & H2 & H3 & H4 & H5 & H6 & H7).
    eexists _, None. split; [apply gs_forfeit; exact X|]. split.
    { unfold shows. cbn [gs_sit gs_streak gs_end]. rewrite H3, H4, H5, H6.
      do 5 (split; [assumption || reflexivity|]). split; assumption. }
    split; [exact Ko|]. unfold effect. rewrite X. cbn [gs_end]. auto.
Qed.

End Calls.

(** ** Histories *)

Section Histories.
Context {E : Type}.
Variable cb : option (ggame -> E -> E * res unit).

Lemma over_stays s limit pick g e x os g' e' rs :
  shows s limit g x -> gs_end x <> None -> run_calls cb pick g e os = (g', e', rs) ->
  g' = g /\ e' = e /\ rs = map (fun _ => Err GameStateError) os.
Proof.
  intros Sh X. pose proof Sh as (_ & _ & _ & _ & _ & En).
  destruct (gs_end x) as [en|] eqn:XE; [|congruence]. destruct En as [Re _].
  assert (gm_over g = true) as O by (destruct Re; assumption).
  revert g' e' rs. induction os as [|o os IH]; intros g' e' rs H; cbn [run_calls] in H.
  - injection H as <- <- <-. auto.
  - assert (call cb pick g e o = (g, e, Err GameStateError)) as C.
    { destruct o; cbn [call]; unfold record_move, record_resignation_by, record_claim_by, record_forfeit_by;
        rewrite O; reflexivity. }
    rewrite C in H. destruct (run_calls cb pick g e os) as [[g2 e2] rs2] eqn:RC.
    injection H as <- <- <-. destruct (IH _ _ _ eq_refl) as (-> & -> & ->). auto.
Qed.

Definition env_after (x : gstate) (g' : ggame) (e e' : E) : Prop :=
  match gs_end x with
  | None => e' = e
  | Some _ => match cb with None => e' = e | Some f => e' = fst (f g' e) end
  end.

Lemma history_app s limit x h y h' z :
  game_history s limit x h y -> game_history s limit y h' z -> game_history s limit x (h ++ h') z.
Proof.
  intros A B. induction B as [|h1 y1 o out z1 B IH St]; [rewrite app_nil_r; exact A|].
  rewrite app_assoc. eapply gh_step; eassumption.
Qed.

Lemma run_calls_history s limit pick : s <= 25 -> forall os g e x g' e' rs,
  shows s limit g x -> ko_ok s x -> gs_end x = None ->
  run_calls cb pick g e os = (g', e', rs) ->
  exists hist y, map fst hist = os /\ game_history s limit x hist y /\ shows s limit g' y /\
    env_after y g' e e'.
Proof.
  intros S25. induction os as [|o os IH]; intros g e x g' e' rs Sh Ko X H; cbn [run_calls] in H.
  - injection H as <- <- <-. exists [], x. split; [reflexivity|]. split; [constructor|]. split; [exact Sh|].
    unfold env_after. rewrite X. reflexivity.
  - destruct (call cb pick g e o) as [[g1 e1] r1] eqn:C.
    destruct (run_calls cb pick g1 e1 os) as [[g2 e2] rs2] eqn:RC. injection H as <- <- <-.
    destruct (call_step cb s limit pick g e x o g1 e1 r1 S25 Sh Ko C) as (y & out & St & Sh1 & Ko1 & Ef).
    unfold effect in Ef. rewrite X in Ef.
    assert (game_history s limit x [(o, out)] y) as H1.
    { change [(o, out)] with ([] ++ [(o, out)]). eapply gh_step; [constructor|exact St]. }
    destruct (gs_end y) as [en|] eqn:Y.
    + destruct Ef as [-> Ef].
      assert (gs_end y <> None) as YN by congruence.
      destruct (over_stays s limit pick g1 e1 y os g2 e2 rs2 Sh1 YN RC) as (-> & -> & _).
      assert (forall os', game_history s limit y (map (fun o => (o, Some GameStateError)) os') y) as HO.
      { induction os' as [|a os' IH'] using rev_ind; [constructor|]. rewrite map_app. cbn [map].
        eapply gh_step; [exact IH'|]. apply gs_over. congruence. }
      exists ((o, None) :: map (fun o => (o, Some GameStateError)) os), y.
      split. { cbn [map fst]. f_equal. rewrite map_map. cbn. apply map_id. }
      split. { exact (history_app s limit x [(o, None)] y _ y H1 (HO os)). }
      split; [exact Sh1|]. unfold env_after. rewrite Y. destruct cb as [f|]; [|tauto].
      rewrite <- Ef. reflexivity.
    + destruct Ef as [-> ->].
      destruct (IH g1 e y g2 e2 rs2 Sh1 Ko1 Y RC) as (hist & z & A1 & A2 & A3 & A4).
      exists ((o, out) :: hist), z. split; [cbn; congruence|]. split.
      { exact (history_app s limit x [(o, out)] y _ z H1 A2). }
      split; assumption.
Qed.

End Histories.

Lemma new_game_shows s limit b first : reachable s b ->
  shows s limit (new_ggame b limit first) (mkGS (start (view b) first) 0 None).
Proof.
  intros Rb. unfold shows, in_progress; cbn. repeat split; auto.
Qed.

Lemma alternates_snoc c l m : alternates c l ->
  alternates c (l ++ [m]) <-> fst m = Nat.iter (List.length l) opponent_of c.
Proof.
  revert c; induction l as [|[d x] l IH]; intros c A.
  - destruct m. cbn. tauto.
  - destruct A as [-> A]. cbn [app alternates List.length]. rewrite (IH _ A).
    assert (forall n, Nat.iter n opponent_of (opponent_of c) = Nat.iter (Datatypes.S n) opponent_of c) as E.
    { intros n. induction n as [|n IHn]; [reflexivity|].
      change (opponent_of (Nat.iter n opponent_of (opponent_of c)) = opponent_of (opponent_of (Nat.iter n opponent_of c))).
      rewrite IHn. reflexivity. }
    rewrite E. tauto.
Qed.

Definition turn_ok (first : colour) (x : situation) : Prop :=
  alternates first (s_moves x) /\ s_turn x = Nat.iter (List.length (s_moves x)) opponent_of first.

Lemma legal_step_turn s first x m y : legal_step s x m y -> turn_ok first x -> turn_ok first y.
Proof.
  intros L [A T].
  inversion L; subst; unfold turn_ok; cbn [s_moves s_turn]; (split;
    [apply alternates_snoc; cbn [fst]; assumption
    |rewrite app_length, Nat.add_comm; cbn [List.length Nat.add Nat.iter nat_rect]; rewrite T; reflexivity]).
Qed.

Lemma legal_game_turn s first x y : legal_game s x y -> turn_ok first x -> turn_ok first y.
Proof. induction 1 as [|y m z L IH St]; auto. intros T. apply (legal_step_turn _ _ _ _ _ St). auto. Qed.

Lemma legal_step_moves s x m y : legal_step s x m y -> s_moves y = s_moves x ++ [(s_turn x, m)].
Proof. inversion 1; reflexivity. Qed.

(** Facts about histories that only depend on what calls mean. *)
Definition hist_ok (s : Z) (limit : option Z) (pos : position) (first : colour) (x : gstate) : Prop :=
  legal_game s (start pos first) (gs_sit x) /\
  (match gs_end x with
   | None => (gs_streak x <= 1)%nat /\ ~ limit_reached limit (s_moves (gs_sit x)) \/ s_moves (gs_sit x) = [] /\ gs_streak x = 0%nat
   | Some MoveLimit => limit_reached limit (s_moves (gs_sit x))
   | Some PassedOut => two_passes (s_moves (gs_sit x))
   | _ => True
   end) /\
  (gs_streak x <> 0%nat -> exists l c, s_moves (gs_sit x) = l ++ [(c, None)]) /\
  (forall n, limit = Some n -> Z.of_nat (List.length (s_moves (gs_sit x))) <= Z.max 1 n).

Lemma hist_ok_step s limit pos first x o y out :
  game_step s limit x o y out -> hist_ok s limit pos first x -> hist_ok s limit pos first y.
Proof.
  intros St (A & B & C & D). inversion St; subst; try (unfold hist_ok; auto; fail);
    try (match goal with H : gs_end x = None |- _ => rewrite H in B end; split; [exact A|]; cbn [gs_end gs_sit gs_streak];
         split; [exact I|]; split; [assumption || (intros NE; congruence)|assumption]).
  - (* pass *)
    rewrite H in B. split; [eapply lg_step; eassumption|].
    pose proof (legal_step_moves _ _ _ _ H0) as EM. cbn [gs_end gs_sit gs_streak].
    assert (forall n, limit = Some n -> Z.of_nat (List.length (s_moves (gs_sit x))) < Z.max 1 n) as LT.
    { intros n En. destruct B as [[_ B]|[-> _]]; [|cbn; lia].
      assert (~ n <= Z.of_nat (List.length (s_moves (gs_sit x)))) as NL by (intros Q; apply B; exists n; auto). lia. }
    split; [|split].
    + inversion H1; subst.
      * apply Nat.eqb_eq in H2. destruct (C ltac:(lia)) as (l & c & El).
        exists l, c, (s_turn (gs_sit x)). rewrite EM, El, <- app_assoc. reflexivity.
      * assumption.
      * left. split; [|assumption]. apply Nat.eqb_neq in H2.
        destruct B as [[B _]|[_ B]]; lia.
    + intros _. exists (s_moves (gs_sit x)), (s_turn (gs_sit x)). exact EM.
    + intros n En. rewrite EM, app_length. cbn [List.length]. specialize (LT n En). lia.
  - rewrite H in B. split; [eapply lg_step; eassumption|].
    pose proof (legal_step_moves _ _ _ _ H0) as EM. cbn [gs_end gs_sit gs_streak].
    assert (forall n, limit = Some n -> Z.of_nat (List.length (s_moves (gs_sit x))) < Z.max 1 n) as LT.
    { intros n En. destruct B as [[_ B]|[-> _]]; [|cbn; lia].
      assert (~ n <= Z.of_nat (List.length (s_moves (gs_sit x)))) as NL by (intros Q; apply B; exists n; auto). lia. }
    split; [|split].
    + inversion H1; subst; [discriminate|assumption|]. left. split; [lia|assumption].
    + congruence.
    + intros n En. rewrite EM, app_length. cbn [List.length]. specialize (LT n En). lia.
  - rewrite H in B. split; [exact A|]. cbn [gs_end gs_sit gs_streak]. split; [|split; [congruence|exact D]].
    destruct B as [[B1 B2]|[B1 B2]]; [left; split; [lia|exact B2]|right; auto].
Qed.

Lemma hist_ok_history s limit pos first h x :
  game_history s limit (mkGS (start pos first) 0 None) h x -> hist_ok s limit pos first x.
Proof.
  induction 1 as [|h y o out z Hi IH St].
  - split; [constructor|]. cbn. split; [right; auto|]. split; [congruence|]. intros; lia.
  - eapply hist_ok_step; eassumption.
Qed.

(** Without attempts to play off the board, the streak is the number of trailing passes. *)
Lemma streak_exact s limit pos first h x :
  game_history s limit (mkGS (start pos first) 0 None) h x ->
  (forall o out, In (o, out) h -> out <> Some IndexError) ->
  gs_end x = None ->
  ~ two_passes (s_moves (gs_sit x)) /\
  (gs_streak x = 0%nat -> forall l c, s_moves (gs_sit x) <> l ++ [(c, None)]).
Proof.
  induction 1 as [|h y o out z Hi IH St]; intros NI XE.
  - split.
    + intros (l & c & d & E). cbn in E. destruct l; discriminate.
    + intros _ l c E. cbn in E. destruct l; discriminate.
  - specialize (IH (fun o' out' I => NI o' out' (in_or_app _ _ _ (or_introl I)))).
    assert (out <> Some IndexError) as NO by (apply (NI o); apply in_or_app; right; left; reflexivity).
    inversion St; subst; try discriminate; try congruence; try (apply IH; assumption).
    + (* pass *)
      cbn [gs_end] in XE. subst e. specialize (IH H). destruct IH as [I1 I2].
      pose proof (legal_step_moves _ _ _ _ H0) as EM. cbn [gs_sit gs_streak]. rewrite EM.
      inversion H1; subst. apply Nat.eqb_neq in H2.
      pose proof (hist_ok_history _ _ _ _ _ _ Hi) as (_ & B & _ & _). rewrite H in B.
      assert (gs_streak y = 0%nat) as S0 by (destruct B as [[B _]|[_ B]]; lia).
      split; [|lia]. intros (l & c & d & E).
      change [(c, None); (d, None)] with ([(c, @None point)] ++ [(d, None)]) in E. rewrite app_assoc in E.
      apply app_inj_tail in E. destruct E as [E _]. exact (I2 S0 _ _ E).
    + cbn [gs_end] in XE. subst e. specialize (IH H).
      pose proof (legal_step_moves _ _ _ _ H0) as EM. cbn [gs_sit gs_streak]. rewrite EM.
      split.
      * intros (l & c & d & E).
        change [(c, None); (d, None)] with ([(c, @None point)] ++ [(d, None)]) in E. rewrite app_assoc in E.
        apply app_inj_tail in E. destruct E as [_ E]. discriminate.
      * intros _ l c E. apply app_inj_tail in E. destruct E as [_ E]. discriminate.
Qed.
