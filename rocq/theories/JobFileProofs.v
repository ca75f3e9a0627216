(** Failed jobs, the environment of the engines and the files of game jobs (C62). *)
From Coq Require Import QArith.
From Verif Require Import ControllerModel ControllerSpec ControllerProofs GtpGameModel GtpGameSpec GtpGameProps.
From Verif Require Import Base Bytes PyStr Dict BoardModel BoardSpec CommonModel CommonProofs SgfGrammarModel SgfGrammarSpec
  SgfPropsModel SgfPropsSpec SgfValueSpec SgfTreeModel SgfTreeSpec SgfMovesModel GameplayModel GameplaySpec GameplayProps
  EngineModel EngineSpec GameSgfModel GameSgfSpec GameSgfProofs
  GameSgfDocProofs GameSgfReadProofs GameSgfMainProofs JobSgfModel JobSgfSpec JobSgfProofs JobSgfMainProofs JobPlayedProofs JobReadProofs
  JobRunModel JobRunSpec JobKeptProofs JobLiveProofs JobTalkProofs JobStonesProofs JobBodyProofs JobEndProofs.
Open Scope Z_scope.

(** ** The environment *)

Lemma dget_update {A} k (e : dict A) : NoDup (map fst e) -> forall d, dget k (dict_update d e) = match dget k e with Some v => Some v | None => dget k d end.
Proof.
  unfold dict_update. induction e as [|(k1, v1) e IH]; intros N d; [reflexivity|]. cbn [map fst] in N. inversion N as [|? ? N1 N2]; subst.
  cbn [fold_left fst snd]. rewrite IH by exact N2. cbn [dget]. rewrite dget_dset.
  destruct (bytes_eqb_spec k k1) as [->|NE]; [|reflexivity].
  assert (dget k1 e = None) as -> by (apply dget_None; exact N1). reflexivity.
Qed.

Lemma environ_proof os j worker p key : (forall e, gp_environ p = Some e -> NoDup (map fst e)) ->
  dget key (job_environ os j worker p) = variable os p (gj_id j) worker key.
Proof.
  intros N. unfold job_environ, variable, make_environ.
  assert (dget key (match gp_environ p with Some e => dict_update os e | None => os end) =
          match gp_environ p with Some e => match dget key e with Some v => Some v | None => dget key os end | None => dget key os end) as E.
  { destruct (gp_environ p) as [e|]; [|reflexivity]. apply dget_update. apply N. reflexivity. }
  destruct worker as [n|]; rewrite ?dget_dset; [destruct (bytes_eqb key (str "GOMILL_SLOT")); [reflexivity|]|];
    (destruct (bytes_eqb key (str "GOMILL_GAME_ID")); [reflexivity|exact E]).
Qed.

(** ** The stones are on the board *)

Lemma stones_on_board {X} j (kb kw : controller (X * list cevent)) stones : stones_from j kb kw stones -> forall p, In p (stones_list stones) -> on_board (gj_size j) p.
Proof.
  unfold stones_from. intros H p I.
  assert (stones = None -> on_board (gj_size j) p) as No by (intros ->; destruct I).
  destruct (gj_handicap j) as [h|]; [|exact (No H)].
  assert (h = 0 -> on_board (gj_size j) p) as Z0 by (intros ->; exact (No H)).
  destruct (Z.eq_dec h 0) as [E|NE]; [exact (Z0 E)|].
  assert (if gj_free j then
        exists pts text vertices answer, stones = Some pts /\ 2 <= h <= gj_size j * gj_size j - 1 /\ NoDup pts /\
          last_said kb (str "place_free_handicap") [str_int h] text /\
          Forall2 (fun v p => move_from_vertex v (gj_size j) = Ok (Some p)) (split_on char_sp text) pts /\
          last_said kw (str "set_free_handicap") vertices answer /\
          Forall2 (fun p v => format_vertex (Some p) = Ok v) pts vertices
      else
        exists pts, stones = Some pts /\ handicap_points h (gj_size j) = Ok pts /\
          forall k, k = kb \/ k = kw -> exists text moves, last_said k (str "fixed_handicap") [str_int h] text /\
            Forall2 (fun v m => move_from_vertex v (gj_size j) = Ok m) (split_on char_sp text) moves /\
            forall m, In m moves <-> exists p, m = Some p /\ In p pts) as H' by (destruct h; [congruence|exact H|exact H]).
  clear H No Z0. destruct (gj_free j).
  - destruct H' as (pts & text & vs & ans & -> & _ & _ & _ & F & _). cbn [stones_list] in I.
    clear -F I. induction F as [|v q vs' qs E F IH]; [destruct I|]. destruct I as [->|I]; [|auto].
    destruct (move_from_vertex_total v (gj_size j)) as [Q|(_ & [(Q & _)|(r & Q & B)])]; [congruence|congruence|]. assert (r = p) as -> by congruence. exact B.
  - destruct H' as (pts & -> & E & _). cbn [stones_list] in I. destruct (handicap_points_ok _ _ _ E) as (_ & _ & _ & (_ & _ & B & _)). apply B. exact I.
Qed.

(** ** Moving a record to the closed game *)

Record same_record {X} (g g' : gtp_game X) : Prop := mkSameRecord {
  sr_runner : ga_runner g' = ga_runner g;
  sr_raw : gb_raw (ga_backend g') = gb_raw (ga_backend g);
  sr_internal : gb_internal (ga_backend g') = gb_internal (ga_backend g);
  sr_id : ga_id g' = ga_id g;
  sr_codes : g_code_b (gb_gc (ga_backend g')) = g_code_b (gb_gc (ga_backend g)) /\ g_code_w (gb_gc (ga_backend g')) = g_code_w (gb_gc (ga_backend g));
  sr_result : forall r, ga_result g' = Some r -> exists r0, ga_result g = Some r0 /\ gr_base r = gr_base r0 /\ gr_player_b r = gr_player_b r0 /\ gr_player_w r = gr_player_w r0
}.

Lemma describe_same r r0 sc : gr_base r = gr_base r0 -> gr_player_b r = gr_player_b r0 -> gr_player_w r = gr_player_w r0 ->
  describe_scoring r sc = describe_scoring r0 sc /\ result_line r = result_line r0.
Proof.
  intros A B C. destruct r as [b1 p1 q1 i1 t1 u1], r0 as [b2 p2 q2 i2 t2 u2]. cbn in A, B, C. subst b2 p2 q2. split; reflexivity.
Qed.

Lemma scores_same {X} (g g' : gtp_game X) : same_record g g' -> game_scores g' = game_scores g.
Proof. intros S. unfold game_scores, player_score. rewrite (sr_runner _ _ S), (sr_raw _ _ S), (sr_internal _ _ S). reflexivity. Qed.

Lemma gtp_recordable_same {X} version today engines (g g' : gtp_game X) : same_record g g' ->
  gtp_recordable version today engines g -> gtp_recordable version today engines g'.
Proof.
  intros S [A B C D E]. destruct (sr_codes _ _ S) as (Cb & Cw). constructor.
  - rewrite (sr_runner _ _ S). exact A.
  - rewrite Cb, Cw. exact B.
  - exact C.
  - rewrite (sr_id _ _ S). exact D.
  - intros r Er. destruct (sr_result _ _ S r Er) as (r0 & E0 & H1 & H2 & H3). rewrite (scores_same _ _ S), (proj1 (describe_same r r0 _ H1 H2 H3)).
    exact (E r0 E0).
Qed.

Lemma raw_texts_same {X} (g g' : gtp_game X) : same_record g g' -> raw_texts g' = raw_texts g.
Proof. intros S. unfold raw_texts. rewrite (sr_runner _ _ S), (sr_raw _ _ S). reflexivity. Qed.

Lemma utf8_start a c r : is_utf8 (a ++ [char_lf] ++ c ++ r) -> is_utf8 a.
Proof.
  intros (u & U & F). destruct (SettingsProofs.utf8_app_inv _ _ _ U) as (ua & ub & Ua & Ub).
  { intros x t E. injection E as <- _. reflexivity. }
  exists ua. split; [exact Ua|]. pose proof (GameSgfProofs.utf8_app _ _ _ _ Ua Ub) as U2.
  apply SgfValueProofs.utf8_decode_of in U. apply SgfValueProofs.utf8_decode_of in U2.
  assert (u = ua ++ ub) as -> by congruence. apply Forall_app in F. apply F.
Qed.

Section Files.
Context {X : Type} (ch : colour -> channel X).
Variables (pick : nat -> nat) (os_environ : dict bytes).
Variable spawn : colour -> list bytes -> dict bytes -> option bytes -> X + bytes.
Variable usage : colour -> X * list cevent -> option pfloat.
Variable error_text : gtp_game (X * list cevent) -> exn -> bytes.
Variables (version today : bytes) (cpu_text : pfloat -> bytes) (now : bytes).
Variable j : game_job.
Variable worker : option Z.
Notation ctl := (controller (X * list cevent)).
Notation chr := (fun c => recorded (ch c)).
Notation run_s := (running (X * list cevent)).

Section Any.
Variable sanitise : bytes -> bytes.
Notation run_it := (run_job chr sanitise pick os_environ (watched spawn) usage error_text version today cpu_text now j worker).
Notation closed_down := (closed_down ch j).

(** Every engine that was started was told what comes before the game. *)
Lemma spoken_proof w w' s e : run_it w = (w', Some s, e) -> forall c k, g_get c (rn_gc s) = Some k -> spoken_to j c k.
Proof.
  intros H. destruct (run_job_cases ch sanitise pick os_environ spawn usage error_text version today cpu_text now j worker _ _ _ _ H)
    as [(_ & _ & Q & _)|(NE & pre & s0 & p & s' & O & Es & C)]; [discriminate Q|]. assert (s' = s) as -> by congruence.
  destruct C as [(x & _ & -> & _)|[(text & _ & A)|(-> & F)]].
  - intros c k G. destruct O as (_ & _ & Op & _). eapply opened_spoken, Op, G.
  - destruct (abort_cases ch sanitise pick os_environ spawn error_text version today cpu_text now j worker _ _ _ _ _ _ _ _ O A) as (oe & CD & _).
    intros c k G. exact (proj1 (proj2 (proj2 (cd_each _ _ _ _ _ CD c k G)))).
  - destruct (finish_cases ch sanitise pick os_environ spawn usage error_text version today cpu_text now j worker _ _ _ _ _ _ _ O F)
      as [(_ & -> & _)|(gr & s1 & oe & Er & CD & M)].
    + intros c k G. destruct O as (_ & _ & Op & _). eapply opened_spoken, Op, G.
    + assert (rn_gc s = rn_gc s1) as Egc.
      { destruct oe as [x|]; [destruct M as (-> & _); reflexivity|]. destruct M as [(_ & -> & _)|(eb & ew & gr' & _ & _ & -> & _)]; reflexivity. }
      rewrite Egc. intros c k G. exact (proj1 (proj2 (proj2 (cd_each _ _ _ _ _ CD c k G)))).
Qed.

(** If the job ends properly, every engine that was started has been closed. *)
Lemma closed_proof w w' s e : run_it w = (w', Some s, e) -> (forall x, e <> Crashed x) ->
  (forall c k, g_get c (rn_gc s) = Some k -> reached (ch c) k /\ c_name k = player_called (gp_code (job_player j c)) /\ is_shut k) /\
  (forall c, g_get c (rn_gc s) = None -> spawn_fails os_environ spawn j worker c \/
     (c = White /\ exists text late file, player_trouble j Black text /\ e = Failed (with_late (aborting text) late) file)).
Proof.
  intros H NC. destruct (run_job_cases ch sanitise pick os_environ spawn usage error_text version today cpu_text now j worker _ _ _ _ H)
    as [(_ & _ & Q & _)|(NE & pre & s0 & p & s' & O & Es & C)]; [discriminate Q|]. assert (s' = s) as -> by congruence.
  destruct C as [(x & _ & _ & Q & _)|[(text & Ep & A)|(Ep & F)]]; [elim (NC x Q)| |].
  - destruct (abort_cases ch sanitise pick os_environ spawn error_text version today cpu_text now j worker _ _ _ _ _ _ _ _ O A) as (oe & CD & M).
    destruct oe as [x|]; [destruct M as (Q & _); elim (NC x Q)|]. destruct M as [(x & _ & Q)|(file & Rec & Ee)]; [elim (NC x Q)|]. split.
    + intros c k G. destruct (cd_each _ _ _ _ _ CD c k G) as (R & N & _ & Sh & _). auto.
    + intros c G. apply (cd_there _ _ _ _ _ CD) in G. destruct O as (_ & Std & _). destruct (Std c G) as [Sp|(-> & T)]; [left; exact Sp|right].
      split; [reflexivity|]. subst p. destruct T as [(t & Q & T)|(x & Q)]; [|discriminate Q]. injection Q as ->. eexists _, _, _. split; [exact T|exact Ee].
  - destruct (finish_cases ch sanitise pick os_environ spawn usage error_text version today cpu_text now j worker _ _ _ _ _ _ _ O F)
      as [(_ & _ & Q)|(gr & s1 & oe & Er & CD & M)]; [elim (NC _ Q)|].
    destruct oe as [x|]; [destruct M as (_ & Q); elim (NC _ Q)|].
    assert (rn_gc s = rn_gc s1) as Egc by (destruct M as [(_ & -> & _)|(eb & ew & gr' & _ & _ & -> & _)]; reflexivity).
    rewrite Egc. split.
    + intros c k G. destruct (cd_each _ _ _ _ _ CD c k G) as (R & N & _ & Sh & _). auto.
    + intros c G. apply (cd_there _ _ _ _ _ CD) in G. destruct O as (_ & Std & _). destruct (Std c G) as [Sp|(-> & T)]; [left; exact Sp|].
      subst p. destruct T as [(t & Q & T)|(x & Q)]; discriminate Q.
Qed.

(** What is left of the game after it was broken off. *)
Definition broken_game (s : run_s) (text : bytes) : Prop :=
  ru_moves (ga_runner (rn_game s)) = [] \/
  exists g0 g1 stones e en_b en_w, set_up_for ch j g0 stones /\ run_gtp_game chr sanitise pick None (fuel j) g0 = (g1, Err e) /\
    (e = bad_gtp \/ e = channel_error) /\ text = error_text g1 e /\ same_record g1 (rn_game s) /\
    rn_b s = Some en_b /\ rn_w s = Some en_w /\
    (exists k, g_get Black (rn_gc s) = Some k /\ introduced sanitise (trace k) en_b) /\
    (exists k, g_get White (rn_gc s) = Some k /\ introduced sanitise (trace k) en_w).

Lemma failed_proof62 w w' so msg file : run_it w = (w', so, Failed msg file) ->
  (gp_code (gj_b j) = gp_code (gj_w j) /\ so = None /\ w' = w /\ file = None /\
     msg = str "error creating game: player codes must be distinct") \/
  (gp_code (gj_b j) <> gp_code (gj_w j) /\ exists s text, so = Some s /\ abort_reason j error_text text /\
     msg = with_late (aborting text) (late_errors (rn_gc s)) /\ g_late (rn_gc s) = late_errors (rn_gc s) /\
     job_record_void version today cpu_text now j s (aborting text) w = (w', Ok file) /\
     g_code_b (rn_gc s) = gp_code (gj_b j) /\ g_code_w (rn_gc s) = gp_code (gj_w j) /\ broken_game s text).
Proof.
  intros H. destruct (run_job_cases ch sanitise pick os_environ spawn usage error_text version today cpu_text now j worker _ _ _ _ H)
    as [(E & -> & -> & Q)|(NE & pre & s & p & s' & O & -> & C)].
  { left. split; [exact E|]. split; [reflexivity|]. split; [reflexivity|].
    split; [exact (f_equal (fun x => match x with Failed _ f => f | _ => None end) Q)|exact (f_equal (fun x => match x with Failed m _ => m | _ => [] end) Q)]. }
  right. split; [exact NE|]. destruct C as [(x & _ & _ & Q & _)|[(text & Ep & A)|(Ep & F)]]; [discriminate Q| |].
  2:{ exfalso. destruct (finish_cases ch sanitise pick os_environ spawn usage error_text version today cpu_text now j worker _ _ _ _ _ _ _ O F)
      as [(_ & _ & Q)|(gr & s1 & oe & Er & CD & M)]; [discriminate Q|].
      destruct oe as [x|]; [destruct M as (_ & Q); discriminate Q|].
      destruct M as [(_ & _ & Q)|(eb & ew & gr' & _ & _ & _ & [(x & _ & Q)|(f & _ & Q)])]; discriminate Q. }
  destruct (abort_cases ch sanitise pick os_environ spawn error_text version today cpu_text now j worker _ _ _ _ _ _ _ _ O A) as (oe & CD & M).
  destruct oe as [x|]; [destruct M as (Q & _); discriminate Q|]. destruct M as [(x & _ & Q)|(f & Rec & Ee)]; [discriminate Q|].
  assert (msg = with_late (aborting text) (late_errors (rn_gc s')) /\ file = f) as (-> & ->)
    by (split; [exact (f_equal (fun x => match x with Failed m _ => m | _ => [] end) Ee)|exact (f_equal (fun x => match x with Failed _ f => f | _ => None end) Ee)]).
  destruct (cd_rest _ _ _ _ _ CD) as (gcl & E1). subst p.
  exists s', text. split; [reflexivity|]. destruct O as (Qu & Std & Op & B).
  assert (Rs : abort_reason j error_text text /\ broken_game s' text).
  { destruct B as [(_ & NM & R)|(out & (Fd & Th & g0 & stones & kb0 & kw0 & GF) & Eo)].
    - split; [apply R; reflexivity|]. left. rewrite E1. exact NM.
    - destruct (game_set_up ch sanitise pick j _ _ _ _ _ _ GF) as (SU & Run).
      split; [eapply of_res_reason; symmetry; exact Eo|]. right.
      unfold of_res_unit in Eo. destruct out as [u|x]; [discriminate Eo|].
      assert (Ex : x = bad_gtp \/ x = channel_error).
      { destruct (is_gtp_error x) eqn:Gx; [|discriminate Eo]. destruct x; try discriminate Gx. cbn in Gx. unfold bad_gtp, channel_error.
        match goal with n : nat |- _ => destruct n as [|[|[|n]]] end; try discriminate Gx; auto. }
      assert (is_gtp_error x = true) as Gx by (destruct Ex as [->| ->]; reflexivity). rewrite Gx in Eo.
      assert (Each : forall c, exists en, rn_engine c s' = Some en /\ exists k, g_get c (rn_gc s') = Some k /\ introduced sanitise (trace k) en).
      { intros c. destruct (Fd c) as (en & Een & Ien). destruct (Th c) as (k & Gk & Pk). exists en.
        split; [rewrite E1; destruct c; exact Een|]. destruct (g_get c (rn_gc s')) as [k1|] eqn:G1.
        - exists k1. split; [reflexivity|]. destruct (cd_each _ _ _ _ _ CD c k1 G1) as (_ & _ & _ & _ & k0 & G0 & P0).
          assert (k0 = k) as -> by congruence. eapply introduced_longer; [eapply introduced_longer; [exact Ien|exact Pk]|exact P0].
        - exfalso. apply (cd_there _ _ _ _ _ CD) in G1. congruence. }
      destruct (Each Black) as (en_b & Eb & Kb). destruct (Each White) as (en_w & Ew & Kw).
      exists g0, (rn_game s), stones, x, en_b, en_w. split; [exact SU|]. split; [exact Run|]. split; [exact Ex|]. split; [congruence|].
      split; [|auto]. destruct Qu as (_ & Q2 & Q3). destruct (cd_codes _ _ _ _ _ CD) as (D2 & D3).
      unfold rn_gc, rn_backend in Q2, Q3, D2, D3.
      constructor; [rewrite E1; reflexivity|rewrite E1; reflexivity|rewrite E1; reflexivity|rewrite E1; reflexivity| |].
      + split; congruence.
      + intros r Er. exists r. split; [|auto]. rewrite E1 in Er. exact Er. }
  split; [apply Rs|]. split; [reflexivity|]. split; [exact (cd_late _ _ _ _ _ CD eq_refl)|]. split; [exact Rec|].
  destruct (cd_codes _ _ _ _ _ CD) as (D2 & D3). split; [exact D2|]. split; [exact D3|]. apply Rs.
Qed.
End Any.

(** ** The files *)

Variable more : bytes -> nat.
Notation run_it := (run_job chr (sanitise_utf8 more) pick os_environ (watched spawn) usage error_text version today cpu_text now j worker).

Lemma introduced_engine sanitise t e : introduced sanitise t e -> exists n v d, new_engine sanitise n v d = Ok e.
Proof. intros (e1 & e2 & e3 & e4 & e5 & rest & _ & _ & _ & _ & _ & _ & E). eauto. Qed.

Lemma late_utf8 (g : gctl (X * list cevent)) : g_late g = late_errors g -> all_utf8 (late_errors g) -> maybe_utf8 (describe_late_errors g).
Proof.
  intros E U s Es. unfold describe_late_errors in Es. rewrite E in Es. destruct (late_errors g) as [|a l]; [discriminate Es|].
  assert (s = lines (a :: l)) as -> by (rewrite lines_join; congruence). apply lines_utf8. exact U.
Qed.

Hypothesis S25 : 2 <= gj_size j <= 25.
Hypothesis KO : komi_ok (gj_komi j).
Hypothesis TX : all_utf8 [version; today; now; gj_id j; gp_code (gj_b j); gp_code (gj_w j)].
Hypothesis TN : maybe_utf8 (gj_name j) /\ maybe_utf8 (gj_event j) /\ maybe_utf8 (gj_note j).
Hypothesis TC : forall x, is_utf8 (cpu_text x).

(** From a game that was set up and run to the record of the closed game. *)
Lemma set_up_recordable g0 g1 g2 out stones engines message :
  set_up_for ch j g0 stones -> run_gtp_game chr (sanitise_utf8 more) pick None (fuel j) g0 = (g1, out) -> same_record g1 g2 ->
  (forall c, exists n v d, new_engine (sanitise_utf8 more) n v d = Ok (engines c)) ->
  all_utf8 (raw_texts g2) -> maybe_utf8 message -> maybe_utf8 (describe_late_errors (gb_gc (ga_backend g2))) ->
  job_recordable version today engines cpu_text now j g2 message.
Proof.
  intros SU Run SR EN RW M L.
  destruct (su_ordered _ _ _ _ SU) as [_ _ _ _ _ _ (Cb & Cw)].
  assert (OB : forall p, In p (stones_list stones) -> on_board (gj_size j) p).
  { destruct (su_engaged _ _ _ _ SU) as (_ & En). destruct (En Black) as (kb & Gb & _). destruct (En White) as (kw & Gw & _).
    exact (stones_on_board j kb kw stones (su_stones _ _ _ _ SU kb kw Gb Gw)). }
  destruct TN as (T1 & T2 & T3).
  assert (KO' : komi_ok (ru_komi (ga_runner g0))) by (rewrite (su_komi _ _ _ _ SU); exact KO).
  assert (TX' : all_utf8 [version; today; g_code_b (gb_gc (ga_backend g0)); g_code_w (gb_gc (ga_backend g0))])
    by (rewrite Cb, Cw; intros x I; apply TX; cbn [In] in *; tauto).
  assert (ID : maybe_utf8 (ga_id g0)) by (intros x Ex; rewrite (su_id _ _ _ _ SU) in Ex; injection Ex as <-; apply TX; cbn [In]; tauto).
  assert (RW' : all_utf8 (raw_texts g1)) by (rewrite <- (raw_texts_same _ _ SR); exact RW).
  pose proof (su_ready _ _ _ _ SU) as Rd. pose proof (su_unplayed _ _ _ _ SU) as NR.
  constructor; auto.
  - eapply gtp_recordable_same; [exact SR|].
    exact (played_gtp_recordable chr more pick (fuel j) g0 g1 out (gj_size j) (Some (gj_limit j)) stones S25 Rd OB KO' NR Run version today engines EN TX' ID RW').
  - intros x I. apply TX. cbn [In] in *. tauto.
  - intros c s Es. destruct (EN c) as (n & v & d & H). destruct (EngineDialogueProofs.describe_utf8 _ n v d _ (EngineProofs.sanitise_utf8_proof more) H) as (_ & A & _). exact (A s Es).
  - intros r Er. destruct (sr_result _ _ SR r Er) as (r0 & E0 & H1 & H2 & H3). rewrite (proj2 (describe_same r r0 None H1 H2 H3)).
    eapply (proj1 (played_result_line chr more pick (fuel j) g0 g1 out (gj_size j) (Some (gj_limit j)) stones S25 Rd OB NR Run version today TX' RW' r0 E0)).
Qed.
Definition pair_of {A} (b w : A) (c : colour) : A := match c with Black => b | White => w end.

Lemma set_up_stones g0 stones : set_up_for ch j g0 stones -> forall p, In p (stones_list stones) -> on_board (gj_size j) p.
Proof.
  intros SU. destruct (su_engaged _ _ _ _ SU) as (_ & En). destruct (En Black) as (kb & Gb & _). destruct (En White) as (kw & Gw & _).
  exact (stones_on_board j kb kw stones (su_stones _ _ _ _ SU kb kw Gb Gw)).
Qed.

(** What is read from a record of the game. *)
Lemma set_up_read g0 g1 g2 out stones d w i sg nodes :
  set_up_for ch j g0 stones -> run_gtp_game chr (sanitise_utf8 more) pick None (fuel j) g0 = (g1, out) -> same_record g1 g2 ->
  reachable_world w -> displays d w i sg nodes -> g_pres sg = new_presenter (g_size sg) UTF_8 -> g_size sg = ru_size (ga_runner g2) ->
  plays d (stones_list (ru_stones (ga_runner g2))) (moves_only (ru_moves (ga_runner g2))) ->
  Z.of_nat (List.length (stones_list stones)) < gj_size j * gj_size j ->
  exists b pos, get_setup_and_moves pick w sg None = (Some b, Ok (moves_only (ru_moves (ga_runner g2)))) /\
     starting_position (gj_size j) stones pos /\ same_on (gj_size j) (view b) pos /\
     record_is_legal (gj_size j) (Some (gj_limit j)) pos (first_player stones) (ru_moves (ga_runner g2)).
Proof.
  intros SU Run SR R D P SZ PL FP. rewrite (sr_runner _ _ SR) in *.
  exact (proj1 (played_read_proof chr more pick (fuel j) g0 g1 out (gj_size j) (Some (gj_limit j)) stones S25 (su_ready _ _ _ _ SU)
    (set_up_stones _ _ SU) FP (su_unplayed _ _ _ _ SU) Run version today d w i sg nodes R D P SZ PL)).
Qed.

Lemma finished_file_proof w w0 w' s r f dir file : run_it w = (w', Some s, Finished r f) ->
  gj_dirname j = Some dir -> gj_filename j = Some file ->
  all_utf8 (raw_texts (rn_game s)) -> all_utf8 (late_errors (rn_gc s)) -> reachable_world w -> reachable_world w0 ->
  exists text w1 sg nodes engines stones,
    f = Some (os_join dir file, text) /\ load_string w0 text UTF_8 false = (w1, Ok tt) /\
    (rn_b s = Some (engines Black) /\ rn_w s = Some (engines White)) /\
    displays (job_document version today engines cpu_text now j (rn_game s) None) w1 (List.length (w_games w0)) sg nodes /\
    get_winner w1 sg = Ok (r_winner (gr_base (rp_result r))) /\
    (exists kb kw : ctl, stones_from j kb kw stones) /\
    (Z.of_nat (List.length (stones_list stones)) < gj_size j * gj_size j ->
     exists b pos, get_setup_and_moves pick w1 sg None = (Some b, Ok (moves_only (ru_moves (ga_runner (rn_game s))))) /\
       starting_position (gj_size j) stones pos /\ same_on (gj_size j) (view b) pos /\
       record_is_legal (gj_size j) (Some (gj_limit j)) pos (first_player stones) (ru_moves (ga_runner (rn_game s)))).
Proof.
  intros H Ed Ef RW LU R R0.
  destruct (finished_proof62 ch (sanitise_utf8 more) pick os_environ spawn usage error_text version today cpu_text now j worker _ _ _ _ _ H)
    as (NE & s' & g0 & g1 & stones & kb & kw & en_b & en_w & Es & SU & Run & Gb & Gw & Er & Ers & Ew & Ei & Eid & Cb & Cw & _ & Ti & _ & _ & _ & _ & La & _ & Ib & Iw & Eb & Ewe & _ & Rec).
  assert (s' = s) as -> by congruence. clear Es.
  assert (Rd := su_ready _ _ _ _ SU). assert (NR := su_unplayed _ _ _ _ SU). pose proof (set_up_stones _ _ SU) as OB.
  destruct (gtp_run_facts chr more pick (fuel j) g0 g1 (Ok tt) NR (ready_commented g0 (gj_size j) (Some (gj_limit j)) stones Rd) Run) as (_ & Co & _ & (s1 & o & Rn) & Fr).
  destruct (su_ordered _ _ _ _ SU) as [_ _ _ _ _ _ (Cb0 & Cw0)]. unfold codes in Co.
  destruct Ti as (gr0 & eb & ew & Eg0 & _ & Egr). cbv zeta in Egr.
  assert (SR : same_record g1 (rn_game s)).
  { constructor; auto.
    - unfold rn_gc, rn_backend in Cb, Cw. split; congruence.
    - intros r0 E0. exists gr0. split; [exact Eg0|]. assert (r0 = rp_result r) as -> by congruence. rewrite Egr. auto. }
  set (engines := pair_of en_b en_w).
  assert (EN : forall c, exists n v d, new_engine (sanitise_utf8 more) n v d = Ok (engines c)) by (intros [|]; eapply introduced_engine; eassumption).
  pose proof (set_up_recordable g0 g1 (rn_game s) (Ok tt) stones engines None SU Run SR EN RW ltac:(intros x Q; discriminate Q) (late_utf8 _ La LU)) as JR.
  destruct (finished_proof version today engines cpu_text now j (rn_game s) w dir file JR R Ed Ef) as (w2 & text & W & R' & UD & Lo).
  unfold job_record_finished, both_engines in Rec. rewrite Eb, Ewe in Rec.
  assert (f = Some (os_join dir file, text)) as ->.
  { assert ((w', Ok f) = (w2, Ok (Some (os_join dir file, text)))) as Q by (etransitivity; [symmetry; exact Rec|exact W]). congruence. }
  destruct (Lo w0 R0) as (w1 & sg & nodes & L1 & L2 & L3 & L4 & L5 & D).
  exists text, w1, sg, nodes, engines, stones. split; [reflexivity|]. split; [exact L1|]. split; [split; assumption|]. split; [exact D|]. split.
  - destruct (run_facts _ pick (fuel j) _ _ _ _ o (gj_size j) (Some (gj_limit j)) stones S25 Rd OB Rn) as (A1 & A2 & A3 & A4 & A5 & _).
    assert (get_winner w1 sg = Ok (winner_of (ga_runner g1))) as ->.
    { eapply winner_from; [exact D| |exact A5]. rewrite <- Er. destruct (job_props version today engines cpu_text now j (rn_game s) None) as (A & _). apply A; discriminate. }
    destruct (Fr gr0 Eg0) as (x & Rx & Bx & _). unfold winner_of. rewrite Rx, Egr. cbn [gr_base]. rewrite Bx. reflexivity.
  - split.
    + destruct (su_engaged _ _ _ _ SU) as (_ & En). destruct (En Black) as (kb0 & Gb0 & _). destruct (En White) as (kw0 & Gw0 & _).
      exists kb0, kw0. exact (su_stones _ _ _ _ SU kb0 kw0 Gb0 Gw0).
    + intros FP. exact (set_up_read g0 g1 (rn_game s) (Ok tt) stones _ w1 _ sg nodes SU Run SR L4 D L5 L2
        (job_plays version today engines cpu_text now j (rn_game s) None) FP).
Qed.

Lemma void_file_proof62 w w0 w' s msg f dir file : run_it w = (w', Some s, Failed msg f) -> 
  gj_void_dirname j = Some dir -> gj_filename j = Some file -> ru_moves (ga_runner (rn_game s)) <> [] ->
  is_utf8 msg -> all_utf8 (raw_texts (rn_game s)) -> all_utf8 (late_errors (rn_gc s)) -> reachable_world w -> reachable_world w0 ->
  exists text w1 sg nodes engines stones reason,
    f = Some (os_join dir file, text) /\ load_string w0 text UTF_8 false = (w1, Ok tt) /\
    (rn_b s = Some (engines Black) /\ rn_w s = Some (engines White)) /\
    msg = abort_message reason (late_errors (rn_gc s)) /\
    displays (void_document version today engines cpu_text now j (rn_game s) (abort_message reason [])) w1 (List.length (w_games w0)) sg nodes /\
    get_winner w1 sg = Ok None /\
    (exists kb kw : ctl, stones_from j kb kw stones) /\
    (Z.of_nat (List.length (stones_list stones)) < gj_size j * gj_size j ->
     exists b pos, get_setup_and_moves pick w1 sg None = (Some b, Ok (moves_only (ru_moves (ga_runner (rn_game s))))) /\
       starting_position (gj_size j) stones pos /\ same_on (gj_size j) (view b) pos /\
       record_is_legal (gj_size j) (Some (gj_limit j)) pos (first_player stones) (ru_moves (ga_runner (rn_game s)))).
Proof.
  intros H Ed Ef NM UM RW LU R R0.
  destruct (failed_proof62 (sanitise_utf8 more) _ _ _ _ _ H) as [(_ & Q & _)|(NE & s' & text0 & Es & _ & Em & La & Rec & _ & _ & B)]; [discriminate Q|].
  assert (s' = s) as -> by congruence. clear Es.
  destruct B as [Q|(g0 & g1 & stones & x & en_b & en_w & SU & Run & _ & _ & SR & Eb & Ewe & (kb & _ & Ib) & (kw & _ & Iw))]; [elim (NM Q)|].
  set (engines := pair_of en_b en_w).
  assert (EN : forall c, exists n v d, new_engine (sanitise_utf8 more) n v d = Ok (engines c)) by (intros [|]; eapply introduced_engine; eassumption).
  assert (UA : maybe_utf8 (Some (aborting text0))).
  { intros m Qm. injection Qm as <-. fold (aborting text0). rewrite Em in UM. unfold with_late in UM. destruct (late_errors (rn_gc s)) as [|a l]; [exact UM|].
    eapply utf8_start; exact UM. }
  pose proof (set_up_recordable g0 g1 (rn_game s) (Err x) stones engines (Some (aborting text0)) SU Run SR EN RW UA (late_utf8 _ La LU)) as JR.
  destruct (void_file_proof version today engines cpu_text now j (rn_game s) (aborting text0) w dir file JR R NM Ed Ef) as (w2 & text & W & R' & UD & Lo).
  unfold job_record_void, both_engines in Rec. rewrite Eb, Ewe in Rec.
  assert (f = Some (os_join dir file, text)) as ->.
  { assert ((w', Ok f) = (w2, Ok (Some (os_join dir file, text)))) as Q by (etransitivity; [symmetry; exact Rec|exact W]). congruence. }
  destruct (Lo w0 R0) as (w1 & sg & nodes & L1 & L2 & L3 & L4 & L5 & D).
  exists text, w1, sg, nodes, engines, stones, text0. split; [reflexivity|]. split; [exact L1|]. split; [split; assumption|].
  split.
  { rewrite Em. unfold with_late, aborting, abort_message.
    destruct (late_errors (rn_gc s)) as [|a l]; [reflexivity|]. cbn [app lines]. rewrite <- !app_assoc. reflexivity. }
  split; [exact D|].
  split; [exact (winner_proof _ w1 _ sg nodes (Some (str "Void")) D eq_refl)|]. split.
  - destruct (su_engaged _ _ _ _ SU) as (_ & En). destruct (En Black) as (kb0 & Gb0 & _). destruct (En White) as (kw0 & Gw0 & _).
    exists kb0, kw0. exact (su_stones _ _ _ _ SU kb0 kw0 Gb0 Gw0).
  - intros FP. exact (set_up_read g0 g1 (rn_game s) (Err x) stones _ w1 _ sg nodes SU Run SR L4 D L5 L2
        (void_plays version today engines cpu_text now j (rn_game s) (aborting text0)) FP).
Qed.
End Files.
