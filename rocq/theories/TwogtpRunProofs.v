(** Proofs about twogtp (C80): series of games. *)
From Verif Require Import Base Bytes PyStr Dict BoardModel BoardSpec CommonModel ControllerModel ControllerSpec ControllerProofs
  SgfPropsModel SgfTreeModel SgfTreeSpec GameplayModel GameplaySpec GameplayProps
  GtpGameModel GtpGameSpec EngineModel EngineSpec EngineDialogueProofs GameSgfModel JobSgfModel JobSgfSpec JobSgfProofs
  JobRunModel JobRunSpec JobKeptProofs JobLiveProofs JobTalkProofs JobEndProofs TwogtpModel TwogtpSpec TwogtpProofs TwogtpFileProofs.

Lemma gtp_error_is e : is_gtp_error e = true -> e = bad_gtp \/ e = channel_error.
Proof.
  intros H. destruct e; try discriminate H. cbn [is_gtp_error] in H. apply orb_prop in H. destruct H as [H|H]; apply Nat.eqb_eq in H; subst; auto.
Qed.

Section Twogtp.
Context {X : Type} (ch : colour -> channel X).
Variables (sanitise : bytes -> bytes) (pick : nat -> nat).
Variable spawn : colour -> list bytes -> X + bytes.
Variable error_text : gtp_game (X * list cevent) -> exn -> bytes.
Variables (version today : bytes).
Variable shlex : bytes -> list bytes + bytes.
Variable write : bytes -> bytes -> option bytes.
Variable o : tw_options.
Variable code : colour -> bytes.
Notation ctl := (controller (X * list cevent)).
Notation gc := (gctl (X * list cevent)).
Notation chr := (fun c => recorded (ch c)).
Notation run_s := (running (X * list cevent)).
Notation alive := (tw_alive ch code).
Notation both_alive := (both_alive ch code).
Notation played := (tw_played ch sanitise pick o code).
Notation begun := (tw_begun ch o code).
Notation saved engines := (@tw_saved X o version today engines).
Notation ending engines := (tw_ending ch sanitise pick o version today write error_text engines code).
Notation rec engines := (@tw_recordable X version today engines).

Lemma saved_nil engines w i : saved engines w i [] [].
Proof. unfold tw_saved. destruct (tw_sgfbase o); [|reflexivity]. split; [reflexivity|constructor]. Qed.

(** One more game at the front. *)
Section Front.
Variables (engines : colour -> engine) (w w1 : world) (i : nat) (g : gtp_game (X * list cevent)) (first : list (bytes * bytes)).
Hypothesis First : match tw_sgfbase o with
  | None => first = [] /\ w1 = w
  | Some prefix => exists text, first = [(tw_path prefix i, text)] /\
      (rec engines w [g] -> reachable_world w1 /\ tw_shows version today engines g text)
  end.
Lemma rec_front games : tw_sgfbase o <> None -> rec engines w (g :: games) -> rec engines w1 games.
Proof.
  intros N (R & F). inversion F as [|? ? Fg Fr]; subst. destruct (tw_sgfbase o); [|congruence]. destruct First as (text & _ & H).
  destruct (H (conj R (Forall_cons _ Fg (Forall_nil _)))) as (R1 & _). exact (conj R1 Fr).
Qed.
Lemma saved_front games files : saved engines w1 (S i) games files -> saved engines w i (g :: games) (first ++ files).
Proof.
  pose proof rec_front games as RF. unfold tw_saved. destruct (tw_sgfbase o) as [prefix|].
  - destruct First as (text & -> & H). intros (E & F). split.
    + cbn [map fst app List.length seq]. rewrite E. reflexivity.
    + intros RR. cbn [app]. constructor; [|apply F, RF; [discriminate|exact RR]].
      destruct RR as (R & FF). inversion FF as [|? ? Fg Fr]; subst. exact (proj2 (H (conj R (Forall_cons _ Fg (Forall_nil _))))).
  - destruct First as (-> & _). auto.
Qed.
Lemma ending_front n games gm g' files e : ending engines w1 n (S i) games gm g' files e -> ending engines w (S n) i (g :: games) gm g' (first ++ files) e.
Proof.
  intros H. inversion H as [L Sv Sh La|L Sv Sh La|g0 x L Sv AC Ex Wh|before g0 prefix text message Eg L Sv Pf Shw Wr Egc|x L Sv|before g0 x Eg L Sv Ns Nr]; subst.
  - apply te_done; auto using saved_front; cbn; lia.
  - apply te_late; auto using saved_front; cbn; lia.
  - apply te_abort; auto using saved_front; cbn; lia.
  - eapply te_write with (before := g :: before) (g := g0); eauto using saved_front.
    + cbn in *. lia.
    + intros RR. apply Shw. eapply rec_front; [congruence|exact RR].
    + cbn [List.length]. replace (i + S (List.length before))%nat with (S i + List.length before)%nat by lia. exact Wr.
  - apply te_raised; auto using saved_front; cbn; lia.
  - eapply te_unrecorded with (before := g :: before) (g := g0); eauto using saved_front.
    + cbn in *. lia.
    + intros RR. apply Nr. apply rec_front; assumption.
Qed.
End Front.

Lemma path_is prefix i : tw_path prefix i = prefix ++ zfill 3 (str_int (Z.of_nat i)) ++ str ".sgf".
Proof. reflexivity. Qed.

Lemma series_proof engines n : forall i t t' e, both_alive (rn_gc (tw_run t)) -> both_engines (tw_run t) = Some engines ->
  tw_series chr sanitise pick error_text version today write o n i t = (t', e) ->
  exists games gm lines files, played (rn_gc (tw_run t)) games gm /\ tw_out t' = tw_out t ++ lines /\ Forall2 tw_line games lines /\
    tw_files t' = tw_files t ++ files /\ ending engines (tw_world t) n i games gm (rn_gc (tw_run t')) files e.
Proof.
  induction n as [|n IH]; intros i t t' e BA BE H.
  - cbn [tw_series] in H. destruct (both_no _ _ _ BA) as (A & L & NN).
    destruct (close_proof ch code _ _ _ _ A L H) as (Eo & Ef & Ew & C & _).
    exists [], (rn_gc (tw_run t)), [], []. split; [constructor|]. rewrite !app_nil_r. split; [exact Eo|]. split; [constructor|]. split; [exact Ef|].
    destruct C as [(x & ->)|(Ee & AC & La & Sh)]; [apply te_raised; [cbn; lia|apply saved_nil]|].
    unfold describe_late_errors in Ee. rewrite La in Ee.
    destruct (late_errors (rn_gc (tw_run t'))) as [|a l] eqn:El.
    + rewrite Ee. apply te_done; auto using saved_nil.
    + assert (NE : late_errors (rn_gc (tw_run t')) <> []) by congruence.
      destruct (late_text ch code _ AC NE) as (c & r & Er). rewrite El in Er. rewrite <- lines_join, Er in Ee. subst e. rewrite <- Er, <- El.
      apply te_late; auto using saved_nil.
  - cbn [tw_series] in H. destruct (tw_play chr sanitise pick o (tw_run t)) as [s1 r1] eqn:P.
    destruct (play_proof ch sanitise pick o code _ _ _ BA P) as (B1 & Eb & Ew & Wh).
    assert (Raised : forall x, (put_run s1 t, TwRaised x) = (t', e) -> exists games gm lines files, played (rn_gc (tw_run t)) games gm /\ tw_out t' = tw_out t ++ lines /\ Forall2 tw_line games lines /\
      tw_files t' = tw_files t ++ files /\ ending engines (tw_world t) (S n) i games gm (rn_gc (tw_run t')) files e).
    { intros x E. apply pair_equal_spec in E. destruct E as [<- <-]. exists [], (rn_gc (tw_run t)), [], []. split; [constructor|]. rewrite !app_nil_r.
      split; [reflexivity|]. split; [constructor|]. split; [reflexivity|]. apply te_raised; [cbn; lia|apply saved_nil]. }
    destruct r1 as [u|x].
    + destruct (ga_result (rn_game s1)) as [gr|] eqn:Er; [|exact (Raised _ H)]. clear Raised.
      destruct Wh as [(N & _)|(g0 & Bg & Run)]; [destruct u; congruence|]. destruct u.
      set (t0 := mkTw s1 (tw_out t ++ [describe gr]) (tw_files t) (tw_world t)) in H.
      assert (BE1 : both_engines (tw_run t0) = Some engines).
      { unfold both_engines in *. cbn [t0 tw_run]. rewrite Eb, Ew. exact BE. }
      destruct (tw_record version today write o i t0) as [t1 r2] eqn:R.
      destruct (record_proof version today write o engines i t0 t1 r2 BE1 R) as (Er1 & Eo1 & C). cbv zeta in C. cbn [t0 tw_run tw_files tw_world] in C.
      assert (Ln : tw_line (rn_game s1) (describe gr)) by (exists gr; split; [exact Er|apply describe_line]).
      assert (Pl : forall games gm, played (rn_gc s1) games gm -> played (rn_gc (tw_run t)) (rn_game s1 :: games) gm).
      { intros games gm Q. econstructor; eauto. }
      assert (First : r2 = None -> exists first, tw_files t1 = tw_files t ++ first /\ match tw_sgfbase o with
          | None => first = [] /\ tw_world t1 = tw_world t
          | Some prefix => exists text, first = [(tw_path prefix i, text)] /\
              (rec engines (tw_world t) [rn_game s1] -> reachable_world (tw_world t1) /\ tw_shows version today engines (rn_game s1) text)
          end).
      { intros ->. destruct (tw_sgfbase o) as [prefix|].
        - destruct C as [(_ & text & Ef & Sh)|[(_ & text & message & _ & Q & _)|(_ & x & Q & _)]]; try discriminate.
          exists [(tw_path prefix i, text)]. split; [exact Ef|]. exists text. auto.
        - destruct C as (-> & _). exists []. split; [symmetry; apply app_nil_r|]. split; reflexivity. }
      destruct r2 as [e2|].
      * apply pair_equal_spec in H. destruct H as [<- <-]. clear First.
        exists [rn_game s1], (rn_gc s1), [describe gr], []. split; [apply Pl; constructor|]. split; [rewrite Eo1; reflexivity|].
        split; [constructor; [exact Ln|constructor]|]. rewrite Er1. cbn [t0 tw_run]. rewrite app_nil_r.
        destruct (tw_sgfbase o) as [prefix|] eqn:Eo2; [|destruct C as (_ & Q); discriminate].
        destruct C as [(Q & _)|[(Ef & text & message & Wr & Q & Sh)|(Ef & x & Q & Nr)]]; [discriminate| |]; (split; [exact Ef|]); (match type of Q with Some ?a = Some ?b => assert (a = b) as -> by congruence end); clear Q R.
        -- apply (te_write ch sanitise pick o version today write error_text engines code _ _ _ _ _ _ _ [] (rn_game s1) prefix text message);
             [reflexivity|cbn; lia|apply saved_nil|exact Eo2|exact Sh| |reflexivity]. cbn [List.length]. rewrite Nat.add_0_r, <- path_is. exact Wr.
        -- apply (te_unrecorded ch sanitise pick o version today write error_text engines code _ _ _ _ _ _ _ [] (rn_game s1) x);
             [reflexivity|cbn; lia|apply saved_nil|congruence|exact Nr].
      * destruct (First eq_refl) as (first & Ef & F). clear First.
        destruct (IH (S i) t1 t' e) as (games & gm & lns & files & Pg & Eo & FL & Efs & En).
        -- rewrite Er1. exact B1.
        -- rewrite Er1. exact BE1.
        -- exact H.
        -- exists (rn_game s1 :: games), gm, (describe gr :: lns), (first ++ files). rewrite Er1 in Pg. split; [apply Pl; exact Pg|].
           split; [rewrite Eo, Eo1; cbn [t0 tw_out]; rewrite <- app_assoc; reflexivity|]. split; [constructor; assumption|].
           split; [rewrite Efs, Ef, app_assoc; reflexivity|]. eapply ending_front; [exact F|exact En].
    + destruct (is_gtp_error x) eqn:GE; [|exact (Raised _ H)]. clear Raised.
      destruct (both_no _ _ _ B1) as (A & L & NN).
      destruct (close_proof ch code (put_run s1 t) _ _ _ A L H) as (Eo & Ef & Ewd & C & _).
      exists [], (rn_gc (tw_run t)), [], []. split; [constructor|]. rewrite !app_nil_r. split; [exact Eo|]. split; [constructor|]. split; [exact Ef|].
      destruct C as [(y & ->)|(-> & AC & La & Sh)]; [apply te_raised; [cbn; lia|apply saved_nil]|].
      change (str "aborting run due to error:" ++ [char_lf] ++ error_text (rn_game s1) x ++ [char_lf])
        with (lines [str "aborting run due to error:"; error_text (rn_game s1) x; []]).
      apply te_abort; auto using saved_nil, gtp_error_is; [cbn; lia|].
      destruct Wh as [(_ & M)|(g0 & Bg & Run)]; [left; exact M|right; exists g0; auto].
Qed.

(** Starting a player. *)
Definition shape (c : colour) (s s' : run_s) : Prop :=
  (forall d, g_code d (rn_gc s') = g_code d (rn_gc s)) /\ g_late (rn_gc s') = g_late (rn_gc s) /\
  forall d, d <> c -> g_get d (rn_gc s') = g_get d (rn_gc s) /\ rn_engine d s' = rn_engine d s.
Lemma player_proof c cmd s s' r : g_code c (rn_gc s) = code c -> g_get c (rn_gc s) = None ->
  tw_player chr sanitise (tw_watched spawn) c cmd s = (s', r) ->
  shape c s s' /\ (forall k, g_get c (rn_gc s') = Some k -> alive c k /\ exists x, spawn c cmd = inl x) /\
  match r with
  | CRet _ => tw_greeted ch sanitise code c (rn_gc s') (rn_engine c s') /\ exists x, spawn c cmd = inl x
  | CChan _ m => tw_trouble code c m
  | _ => True
  end.
Proof.
  intros Code None_ H. unfold tw_player in H. rewrite Code in H. cbv zeta in H. unfold tw_watched in H.
  destruct (spawn c cmd) as [x|text] eqn:Sp.
  2:{ apply pair_equal_spec in H. destruct H as [<- <-]. split; [split; [|split]; auto|]. split; [congruence|]. exact (tt_spawn code c text). }
  unfold set_player_controller in H. fold (player_called (code c)) in H. set (name := player_called (code c)) in *.
  pose proof (greeting_steps (ch c) sanitise x name) as GS. cbv zeta in GS. set (k0 := new_controller (x, []) name) in *.
  assert (A0 : alive c k0). { destruct (live_new (ch c) x name) as (R & C & N). split; [exact R|]. split; [exact C|]. split; [exact N|]. split; reflexivity. }
  assert (Sh : forall k, shape c s (put_gc (g_put c k (rn_gc s)) s)).
  { intros k. split; [intros [|]; destruct c; reflexivity|]. split; [destruct c; reflexivity|]. intros d N. split; [|destruct d; reflexivity]. apply get_other. exact N. }
  assert (Gt : forall k, g_get c (rn_gc (put_gc (g_put c k (rn_gc s)) s)) = Some k) by (intros k; apply get_it).
  assert (Fail : forall k l (r' : cres unit), step (ch c) k0 k l -> (forall u, r' <> CRet u) ->
     match r' with CChan _ m => (exists text, message_about name m text) | _ => True end ->
     (put_gc (g_put c k (rn_gc s)) s, r') = (s', r) ->
     shape c s s' /\ (forall k, g_get c (rn_gc s') = Some k -> alive c k /\ exists y, @inl X bytes x = inl y) /\
     match r with
     | CRet _ => tw_greeted ch sanitise code c (rn_gc s') (rn_engine c s') /\ exists y, @inl X bytes x = inl y
     | CChan _ m => tw_trouble code c m
     | _ => True
     end).
  { intros k l r' St NR W E. apply pair_equal_spec in E. destruct E as [<- <-]. split; [apply Sh|]. split.
    - intros k' G. rewrite Gt in G. injection G as <-. split; [exact (alive_step _ _ _ _ _ _ A0 St)|eexists; reflexivity].
    - destruct r' as [u|m y|kd m|e]; auto; [elim (NR u eq_refl)|]. destruct W as (text & W). exact (tt_channel code c m text W). }
  assert (WC : forall k1 kd m, check_protocol_version (recorded (ch c)) k0 = (k1, CChan kd m) -> exists text, message_about name m text).
  { intros k1 kd m CP. unfold check_protocol_version in CP. destruct (do_command (recorded (ch c)) k0 (str "protocol_version") []) as [k' r'] eqn:D.
    destruct (step_do (ch c) _ _ _ _ _ (alive_live _ _ _ _ A0) D) as (_ & _ & ev & _ & O1 & X1). pose proof (wrong_about _ _ _ _ _ X1 O1) as W1.
    destruct r' as [v|m' y|kd' m'|e]; [destruct (is_version_2 v); discriminate|discriminate| |discriminate]. injection CP as _ _ <-. exact W1. }
  destruct (check_protocol_version (recorded (ch c)) k0) as [k1 r1] eqn:CP. destruct r1 as [u|m y|kd m|e].
  2-4: destruct GS as [St W]; match type of H with (_, ?r0) = _ => eapply (Fail k1 _ r0) end; [exact St|discriminate|first [exact I|exact (WC _ _ _ eq_refl)]|exact H].
  destruct (from_controller sanitise (recorded (ch c)) k1) as [k2 r2]. destruct GS as (d & l & St & P & W). cbn [fst snd] in St, W.
  destruct r2 as [en|m y|kd m|e].
  2-4: match type of H with (_, ?r0) = _ => eapply (Fail k2 _ r0) end; [exact St|discriminate|first [exact I|exact W]|exact H].
  destruct W as (-> & En). clear Fail. apply pair_equal_spec in H. destruct H as [<- <-].
  assert (E1 : rn_gc (put_engine c en (put_gc (g_put c k2 (rn_gc s)) s)) = rn_gc (put_gc (g_put c k2 (rn_gc s)) s)) by (destruct c; reflexivity).
  destruct (Sh k2) as (S1 & S2 & S3). rewrite E1. pose proof (alive_step _ _ _ _ _ _ A0 St) as A2.
  split; [|split].
  - split; [rewrite E1; exact S1|]. split; [rewrite E1; exact S2|]. intros e N. rewrite E1. split; [exact (proj1 (S3 e N))|].
    destruct c, e; try reflexivity; congruence.
  - intros k G. rewrite Gt in G. injection G as <-. split; [exact A2|eexists; reflexivity].
  - split; [|eexists; reflexivity]. exists k2, en, d. split; [apply Gt|]. split; [exact A2|]. split; [|split; [destruct c; reflexivity|exact En]].
    rewrite (sp_sent _ _ _ _ St). reflexivity.
Qed.

Lemma start_proof black white t t' e :
  (forall c, g_code c (rn_gc (tw_run t)) = code c) -> g_late (rn_gc (tw_run t)) = [] -> (forall c, g_get c (rn_gc (tw_run t)) = None) ->
  tw_out t = [] -> tw_files t = [] ->
  tw_start chr sanitise pick (tw_watched spawn) error_text version today write o black white t = (t', e) ->
  tw_outcome ch sanitise pick o version today write error_text code (fun c => exists x, spawn c (match c with Black => black | White => white end) = inl x) (tw_world t) t' e.
Proof.
  intros Co La No Eo Ef H. unfold tw_start in H. cbv zeta in H.
  destruct (tw_player chr sanitise (tw_watched spawn) Black black (tw_run t)) as [s1 r1] eqn:P1.
  destruct (player_proof _ _ _ _ _ (Co Black) (No Black) P1) as ((C1 & L1 & O1) & A1 & R1).
  assert (Tr : forall s c m, (forall d k, g_get d (rn_gc s) = Some k -> alive d k /\ exists x, spawn d (match d with Black => black | White => white end) = inl x) ->
    g_late (rn_gc s) = [] -> tw_trouble code c m -> (c = Black -> g_get White (rn_gc s) = None) ->
    tw_close chr (put_run s t) (fun _ => TwExit (str "error creating players:" ++ [char_lf] ++ m ++ [char_lf])) = (t', e) ->
    tw_outcome ch sanitise pick o version today write error_text code (fun c => exists x, spawn c (match c with Black => black | White => white end) = inl x) (tw_world t) t' e).
  { intros s c m A L T N C. destruct (close_proof ch code (put_run s t) _ _ _ (fun d k G => proj1 (A d k G)) L C) as (Eo1 & Ef1 & _ & W & No1).
    cbn [put_run tw_out tw_files tw_run] in Eo1, Ef1, No1. rewrite Eo in Eo1. rewrite Ef in Ef1.
    destruct W as [(x & ->)|(-> & AC & _ & _)]; [apply to_raised; assumption|].
    change (str "error creating players:" ++ [char_lf] ++ m ++ [char_lf]) with (lines [str "error creating players:"; m; []]).
    apply to_trouble with (c := c); auto. intros d Nd. destruct (g_get d (rn_gc s)) as [k|] eqn:G; [exact (proj2 (A d k G))|].
    elim Nd. exact (No1 d G). }
  assert (NW : g_get White (rn_gc s1) = None) by (rewrite (proj1 (O1 White ltac:(discriminate))); apply No).
  assert (Al1 : forall d k, g_get d (rn_gc s1) = Some k -> alive d k /\ exists x, spawn d (match d with Black => black | White => white end) = inl x).
  { intros [|] k G; [exact (A1 k G)|]. congruence. }
  destruct r1 as [u|m y|kd m|x].
  - destruct (tw_player chr sanitise (tw_watched spawn) White white s1) as [s2 r2] eqn:P2.
    destruct (player_proof _ _ _ _ _ (eq_trans (C1 White) (Co White)) NW P2) as ((C2 & L2 & O2) & A2 & R2).
    assert (La2 : g_late (rn_gc s2) = []) by congruence.
    assert (Al2 : forall d k, g_get d (rn_gc s2) = Some k -> alive d k /\ exists x, spawn d (match d with Black => black | White => white end) = inl x).
    { intros [|] k G; [|exact (A2 k G)]. rewrite (proj1 (O2 Black ltac:(discriminate))) in G. exact (A1 k G). }
    destruct r2 as [u2|m y|kd m|x].
    + destruct R1 as (G1 & St1). destruct R2 as (G2 & St2).
      destruct G1 as (kb & eb & db & Gb & Ab & Sb & Eb & Ib). destruct G2 as (kw & ew & dw & Gw & Aw & Sw & Ew & Iw).
      destruct (O2 Black ltac:(discriminate)) as (Gs & Es).
      assert (Eb2 : rn_b s2 = Some eb) by (cbn [rn_engine] in Es; rewrite Es; exact Eb).
      assert (Ew2 : rn_w s2 = Some ew) by exact Ew.
      set (engines := fun c => match c with Black => eb | White => ew end).
      destruct (series_proof engines (Z.to_nat (tw_games o)) 0 (put_run s2 t) t' e) as (games & gm & lns & files & Pg & Eo1 & FL & Ef1 & En).
      * split; [intros c; rewrite C2, C1; apply Co|]. split; [exact La2|]. intros [|].
        -- exists kb. split; [exact (eq_trans Gs Gb)|exact Ab].
        -- exists kw. auto.
      * unfold both_engines. cbn [put_run tw_run]. rewrite Eb2, Ew2. reflexivity.
      * exact H.
      * cbn [put_run tw_run tw_out tw_files tw_world] in *. rewrite Eo in Eo1. rewrite Ef in Ef1. cbn [app] in Eo1, Ef1. subst files.
        eapply to_played with (engines := engines); [| |exact Pg|exact Eo1|exact FL|exact En].
        -- intros [|]; [exists kb, eb, db|exists kw, ew, dw]; split; auto. exact (eq_trans Gs Gb).
        -- intros [|]; assumption.
    + apply pair_equal_spec in H. destruct H as [<- <-]. apply to_raised; assumption.
    + apply (Tr s2 White m); auto. discriminate.
    + apply pair_equal_spec in H. destruct H as [<- <-]. apply to_raised; assumption.
  - apply pair_equal_spec in H. destruct H as [<- <-]. apply to_raised; assumption.
  - apply (Tr s1 Black m); auto. congruence.
  - apply pair_equal_spec in H. destruct H as [<- <-]. apply to_raised; assumption.
Qed.
End Twogtp.

Lemma code_distinct b w : tw_code b w Black <> tw_code b w White.
Proof.
  unfold tw_code. destruct (bytes_eqb_spec b w) as [->|N]; [|exact N]. intros E. apply app_inv_head in E. discriminate.
Qed.

Lemma truthy_given a : match truthy a with Some b => tw_given a b | None => forall b, ~ tw_given a b end.
Proof.
  unfold tw_given. destruct a as [[|c r]|]; cbn [truthy].
  - intros b (E & N). congruence.
  - split; [reflexivity|discriminate].
  - intros b (E & _). discriminate.
Qed.

Section Main.
Context {X : Type} (ch : colour -> channel X).
Variables (sanitise : bytes -> bytes) (pick : nat -> nat).
Variable spawn : colour -> list bytes -> X + bytes.
Variable error_text : gtp_game (X * list cevent) -> exn -> bytes.
Variables (version today : bytes).
Variable shlex : bytes -> list bytes + bytes.
Variable write : bytes -> bytes -> option bytes.
Variable o : tw_options.

Lemma main_proof args w t e :
  tw_main (fun c => recorded (ch c)) sanitise pick (tw_watched spawn) error_text version today shlex write o args w = (t, e) ->
  match t with
  | None =>
      (args <> [] /\ e = TwUsage (str "too many arguments")) \/
      (args = [] /\ ((forall b, ~ tw_given (tw_black o) b) \/ (forall b, ~ tw_given (tw_white o) b)) /\ e = TwUsage (str "players not specified")) \/
      (args = [] /\ exists b wh, tw_given (tw_black o) b /\ tw_given (tw_white o) wh /\
         ((exists text, (shlex b = inr text \/ shlex wh = inr text) /\ e = TwRaised ValueError) \/
          ((shlex b = inl [] \/ shlex wh = inl []) /\ e = TwRaised IndexError)))
  | Some t =>
      args = [] /\ exists b wh cb argb cw argw, tw_given (tw_black o) b /\ tw_given (tw_white o) wh /\
        shlex b = inl (cb :: argb) /\ shlex wh = inl (cw :: argw) /\
        tw_outcome ch sanitise pick o version today write error_text (tw_code cb cw)
          (fun c => exists x, spawn c (match c with Black => cb :: argb | White => cw :: argw end) = inl x) w t e
  end.
Proof.
  intros H. unfold tw_main in H. destruct args as [|a l].
  2:{ apply pair_equal_spec in H. destruct H as [<- <-]. left. split; [discriminate|reflexivity]. }
  pose proof (truthy_given (tw_black o)) as TB. pose proof (truthy_given (tw_white o)) as TW.
  destruct (truthy (tw_black o)) as [b|].
  2:{ apply pair_equal_spec in H. destruct H as [<- <-]. right. left. auto. }
  destruct (truthy (tw_white o)) as [wh|].
  2:{ apply pair_equal_spec in H. destruct H as [<- <-]. right. left. auto. }
  destruct (shlex b) as [black|text] eqn:SB.
  2:{ apply pair_equal_spec in H. destruct H as [<- <-]. right. right. split; [reflexivity|]. exists b, wh. split; [exact TB|]. split; [exact TW|]. left. eauto. }
  destruct (shlex wh) as [white|text] eqn:SW.
  2:{ apply pair_equal_spec in H. destruct H as [<- <-]. right. right. split; [reflexivity|]. exists b, wh. split; [exact TB|]. split; [exact TW|]. left. eauto. }
  destruct black as [|cb argb].
  { apply pair_equal_spec in H. destruct H as [<- <-]. right. right. split; [reflexivity|]. exists b, wh. split; [exact TB|]. split; [exact TW|]. right. auto. }
  destruct white as [|cw argw].
  { apply pair_equal_spec in H. destruct H as [<- <-]. right. right. split; [reflexivity|]. exists b, wh. split; [exact TB|]. split; [exact TW|]. right. auto. }
  unfold tw_codes in H.
  assert (EC : (if bytes_eqb cb cw then (cb ++ str "-b", cw ++ str "-w") else (cb, cw)) = (tw_code cb cw Black, tw_code cb cw White)).
  { unfold tw_code. destruct (bytes_eqb cb cw); reflexivity. }
  rewrite EC in H. clear EC. unfold new_gctl in H. pose proof (code_distinct cb cw) as D.
  destruct (bytes_eqb_spec (tw_code cb cw Black) (tw_code cb cw White)) as [Q|_]; [contradiction|]. clear D.
  match type of H with (let (t, e) := tw_start _ _ _ _ _ _ _ _ _ _ _ ?t0 in _) = _ => set (t0' := t0) in H end.
  destruct (tw_start _ _ _ _ _ _ _ _ _ _ _ t0') as [t1 e1] eqn:S in H. apply pair_equal_spec in H. destruct H as [<- <-].
  split; [reflexivity|]. exists b, wh, cb, argb, cw, argw. split; [exact TB|]. split; [exact TW|]. split; [exact SB|]. split; [exact SW|].
  change w with (tw_world t0'). eapply start_proof; [..|exact S]; try reflexivity; intros [|]; reflexivity.
Qed.
End Main.
