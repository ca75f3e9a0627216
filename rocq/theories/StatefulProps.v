(** C86: the engine that plays and resigns randomly (gomill_examples/gtp_stateful_player). *)
From Verif Require Import Base Bytes PyStr Dict BoardModel BoardSpec BoardProofs BoardMainProofs CommonModel CommonProofs GtpModel GtpStateModel GtpStateSpec
  GtpStateProofs GtpStateMainProofs GtpStateFinalProofs GtpStateProps GtpArgSpec GtpArgProofs SaveModel StatefulModel StatefulSpec StatefulProofs.
From Verif Require GtpChannelProofs SgfPropsModel.
Open Scope Z_scope.

Lemma clean_vertex q v : format_vertex (Some q) = Ok v -> clean_response v = v.
Proof.
  intros F.
  assert (Q : on_board 25 q) by (apply (proj1 (format_vertex_ok (Some q))); eauto).
  assert (A : forallb (fun q => match format_vertex (Some q) with Ok v => bytes_eqb (clean_response v) v | Err _ => false end) (board_points 25) = true) by (vm_compute; reflexivity).
  rewrite forallb_forall in A. specialize (A q (proj2 (In_board_points 25 q) Q)). rewrite F in A.
  destruct (bytes_eqb_spec (clean_response v) v); [assumption|discriminate].
Qed.

Lemma sizes_small s : sound s -> 2 <= st_size (p_game s) <= 25.
Proof.
  intros [S SZ]. destruct (C37_board_is_the_replay_of_the_history _ S) as (I & _). rewrite SZ in I.
  destruct I as [<-|[<-|[<-|[]]]]; lia.
Qed.

(** The list of the empty points that the generator sees. *)
Definition its_empties (st : gstate) : list point :=
  filter (fun q => match view (st_board st) q with None => true | Some _ => false end) (board_points (side (st_board st))).
Lemma its_empties_ok st : served st -> empties st (its_empties st) /\
  find_empties (st_board st) (board_points (side (st_board st))) = Ok (its_empties st).
Proof.
  intros S. destruct (C37_board_is_the_replay_of_the_history _ S) as (_ & _ & R & _ & _).
  destruct (reachable_good _ _ R) as [G SD].
  split; [split|].
  - apply NoDup_filter. apply NoDup_board_points.
  - intros q. unfold its_empties. rewrite filter_In, In_board_points, SD. destruct (view (st_board st) q); intuition discriminate.
  - apply find_empties_ok; [apply G|]. apply Forall_forall. intros q I. apply In_board_points. exact I.
Qed.

Lemma gen_is ar p st c reg : served st ->
  random_genmove ar p (state_for st c reg) c =
  if draw_below (ar_draw ar) p then Ok (mkGen true false None false None None)
  else match nth_error (its_empties st) (Nat.modulo (ar_choice ar) (List.length (its_empties st))) with
       | None => Err IndexError
       | Some q => Ok (mkGen false false (Some q) false (Some (remark (List.length (its_empties st)))) None)
       end.
Proof.
  intros S. unfold random_genmove, state_for. cbn [gs_board]. rewrite (proj2 (its_empties_ok st S)). reflexivity.
Qed.
Lemma draw_spec d p : draw_below d p = true <-> resigns d p.
Proof. unfold draw_below, resigns. apply Z.ltb_lt. Qed.

Definition internal : bytes := str "internal error" ++ char_lf :: str "traceback".

Lemma genmove_err env st a rest c e reg : interpret_colour a = GOk c -> env_gen env (state_for st c reg) c = Err e ->
  handle_genmove_common (env_pick env) (env_gen env) reg false st (a :: rest) = (st, GRaise (str "traceback")).
Proof. intros I G. unfold handle_genmove_common, get_or, first_arg. rewrite I. rewrite G. reflexivity. Qed.
Lemma genmove_resign env st a rest c reg : interpret_colour a = GOk c ->
  env_gen env (state_for st c reg) c = Ok (mkGen true false None false None None) ->
  handle_genmove_common (env_pick env) (env_gen env) reg false st (a :: rest) = (st, GOk (Some (str "resign"))).
Proof. intros I G. unfold handle_genmove_common, get_or, first_arg. rewrite I. rewrite G. reflexivity. Qed.

(** genmove resigns if the draw is below the probability that has been set. Otherwise it plays at one of
    the empty points, each of which is chosen for one of the possible choices; it fails (with an
    internal error) if there are none. *)
Theorem C86_genmove s : sound s -> exists pts, empties (p_game s) pts /\
  forall ar a rest c, interpret_colour a = GOk c ->
  let n := List.length pts in
  (resigns (ar_draw ar) (p_resign s) -> obey ar s (str "genmove") (a :: rest) = (s, success (str "resign"))) /\
  (~ resigns (ar_draw ar) (p_resign s) -> pts = [] -> obey ar s (str "genmove") (a :: rest) = (s, fails internal)) /\
  (~ resigns (ar_draw ar) (p_resign s) -> pts <> [] -> exists q v s',
     nth_error pts (ar_choice ar mod n) = Some q /\ format_vertex (Some q) = Ok v /\
     obey ar s (str "genmove") (a :: rest) = (s', success v) /\ p_resign s' = p_resign s /\ sound s' /\
     one_more (mkH c (Some q) (Some (remark n)) None) (p_game s) (p_game s')).
Proof.
  intros SD. pose proof (sizes_small s SD) as SZ. destruct SD as [S SIZES]. exists (its_empties (p_game s)). split; [exact (proj1 (its_empties_ok _ S))|].
  intros ar a rest c IC. cbv zeta. change (str "genmove") with (command_name Genmove).
  rewrite (obey_state ar s Genmove (a :: rest)) by (cbn; tauto).
  pose proof (gen_is ar (p_resign s) (p_game s) c false S) as GI.
  destruct (draw_below (ar_draw ar) (p_resign s)) eqn:DB.
  - apply draw_spec in DB. split; [intros _|split; intros N; contradiction].
    cbn [handle]. unfold handle_genmove. rewrite (genmove_resign (env_of ar (p_resign s)) (p_game s) a rest c false IC GI). destruct s; reflexivity.
  - assert (ND : ~ resigns (ar_draw ar) (p_resign s)) by (intros R; apply draw_spec in R; congruence).
    split; [intros R; contradiction|]. split; intros _ NE.
    + rewrite NE in GI. cbn [List.length] in GI. assert (GI' : env_gen (env_of ar (p_resign s)) (state_for (p_game s) c false) c = Err IndexError)
        by (cbn [env_of env_gen]; rewrite GI; destruct (ar_choice ar mod 0)%nat; reflexivity).
      cbn [handle]. unfold handle_genmove. rewrite (genmove_err _ (p_game s) a rest c IndexError false IC GI'). destruct s; reflexivity.
    + assert (LN : List.length (its_empties (p_game s)) <> O) by (destruct (its_empties (p_game s)); [congruence|discriminate]).
      destruct (nth_error (its_empties (p_game s)) (ar_choice ar mod List.length (its_empties (p_game s)))) as [q|] eqn:NT;
        [|apply nth_error_None in NT; pose proof (Nat.mod_upper_bound (ar_choice ar) _ LN); lia].
      assert (Iq : In q (its_empties (p_game s))) by (apply nth_error_In in NT; exact NT).
      apply (proj2 (proj1 (its_empties_ok _ S))) in Iq.
      set (env := env_of ar (p_resign s)) in *.
      assert (GI' : env_gen env (state_for (p_game s) c false) c = Ok (mkGen false false (Some q) false (Some (remark (List.length (its_empties (p_game s))))) None))
        by (unfold env, env_of; cbn [env_gen]; exact GI).
      assert (GM : generated_move (mkGen false false (Some q) false (Some (remark (List.length (its_empties (p_game s))))) None) (Some q)) by (split; [reflexivity|split; [reflexivity|discriminate]]).
      destruct (C37_commands_succeed env (p_game s) S) as (_ & _ & SU & _).
      destruct (SU a rest c _ (Some q) (proj2 SZ) IC GI' GM Iq) as (g' & v & FV & HD).
      rewrite HD. exists q, v, (mkProgram g' (p_resign s)). split; [reflexivity|]. split; [exact FV|].
      split; [unfold success; cbn [answer]; rewrite (clean_vertex q v FV); reflexivity|]. split; [reflexivity|].
      pose proof (C37_commands_do_what_they_say env Genmove _ _ _ _ S HD) as EF. cbn [effect] in EF.
      destruct EF as (a0 & r0 & c0 & EA & IC0 & g & GG & CASES). apply (f_equal (hd [])) in EA. cbn [hd] in EA. subst a0.
      rewrite IC in IC0. assert (c0 = c) as -> by congruence. rewrite GI' in GG.
      assert (EG : g = mkGen false false (Some q) false (Some (remark (List.length (its_empties (p_game s))))) None) by congruence. rewrite EG in CASES. cbn [gen_claim gen_resign gen_comments gen_cookie] in CASES.
      destruct CASES as [(X & _)|[(_ & X & _)|(_ & m & v' & GM' & _ & _ & OM)]]; [discriminate|discriminate|].
      destruct GM' as [_ GM']. cbn [gen_pass gen_move] in GM'. destruct GM' as [-> _].
      split; [split|exact OM].
      * cbn [p_game]. apply (sv_command env Genmove (a :: rest) (p_game s) g' (GOk (Some v)) S HD). discriminate.
      * cbn [p_game]. destruct OM as [_ OM]. apply (f_equal i_sizes) in OM. cbn [info_of i_sizes] in OM. rewrite OM. exact SIZES.
Qed.
Print Assumptions C86_genmove.

(** reg_genmove gives a move in the same way, and changes nothing. *)
Theorem C86_reg_genmove s : sound s -> exists pts, empties (p_game s) pts /\
  forall ar a rest c, interpret_colour a = GOk c ->
  (resigns (ar_draw ar) (p_resign s) -> obey ar s (str "reg_genmove") (a :: rest) = (s, success (str "resign"))) /\
  (~ resigns (ar_draw ar) (p_resign s) -> pts = [] -> obey ar s (str "reg_genmove") (a :: rest) = (s, fails internal)) /\
  (~ resigns (ar_draw ar) (p_resign s) -> pts <> [] -> exists q v,
     nth_error pts (ar_choice ar mod List.length pts) = Some q /\ format_vertex (Some q) = Ok v /\
     obey ar s (str "reg_genmove") (a :: rest) = (s, success v)).
Proof.
  intros SD. pose proof (sizes_small s SD) as SZ. destruct SD as [S SIZES]. exists (its_empties (p_game s)). split; [exact (proj1 (its_empties_ok _ S))|].
  intros ar a rest c IC. change (str "reg_genmove") with (command_name Reg_genmove).
  rewrite (obey_state ar s Reg_genmove (a :: rest)) by (cbn; tauto).
  pose proof (gen_is ar (p_resign s) (p_game s) c true S) as GI.
  destruct (draw_below (ar_draw ar) (p_resign s)) eqn:DB.
  - apply draw_spec in DB. split; [intros _|split; intros N; contradiction].
    cbn [handle]. unfold handle_reg_genmove. rewrite (genmove_resign (env_of ar (p_resign s)) (p_game s) a rest c true IC GI). destruct s; reflexivity.
  - assert (ND : ~ resigns (ar_draw ar) (p_resign s)) by (intros R; apply draw_spec in R; congruence).
    split; [intros R; contradiction|]. split; intros _ NE.
    + rewrite NE in GI. cbn [List.length] in GI. assert (GI' : env_gen (env_of ar (p_resign s)) (state_for (p_game s) c true) c = Err IndexError)
        by (cbn [env_of env_gen]; rewrite GI; destruct (ar_choice ar mod 0)%nat; reflexivity).
      cbn [handle]. unfold handle_reg_genmove. rewrite (genmove_err _ (p_game s) a rest c IndexError true IC GI'). destruct s; reflexivity.
    + assert (LN : List.length (its_empties (p_game s)) <> O) by (destruct (its_empties (p_game s)); [congruence|discriminate]).
      destruct (nth_error (its_empties (p_game s)) (ar_choice ar mod List.length (its_empties (p_game s)))) as [q|] eqn:NT;
        [|apply nth_error_None in NT; pose proof (Nat.mod_upper_bound (ar_choice ar) _ LN); lia].
      assert (Iq : In q (its_empties (p_game s))) by (apply nth_error_In in NT; exact NT).
      apply (proj2 (proj1 (its_empties_ok _ S))) in Iq.
      assert (exists v, format_vertex (Some q) = Ok v) as [v FV].
      { apply (format_vertex_ok (Some q)). destruct Iq as [OB _]. unfold on_board in *. lia. }
      exists q, v. split; [reflexivity|]. split; [exact FV|].
      cbn [handle]. unfold handle_reg_genmove, handle_genmove_common, get_or, first_arg. rewrite IC.
      assert (GI' : env_gen (env_of ar (p_resign s)) (state_for (p_game s) c true) c = Ok (mkGen false false (Some q) false (Some (remark (List.length (its_empties (p_game s))))) None)) by exact GI.
      rewrite GI'. cbn [andb gen_claim gen_resign gen_pass gen_move]. destruct q as [row col]. cbv iota beta.
      match goal with |- context [format_vertex ?x] => assert (FV' : format_vertex x = Ok v) by exact FV; rewrite FV' end.
      unfold success. cbn [answer]. rewrite (clean_vertex _ v FV). destruct s; reflexivity.
Qed.
Print Assumptions C86_reg_genmove.

Lemma clean_remark n : clean_response (remark n) = remark n.
Proof.
    apply GtpChannelProofs.clean_of_neat. destruct (str_int_nonneg (Z.of_nat n) ltac:(lia)) as (_ & D & _).
    assert (F : Forall (fun c => 32 <= ord c /\ ord c <> 127) (remark n)).
    { unfold remark. apply Forall_app. split; [repeat constructor; discriminate|]. apply Forall_app. split; [|repeat constructor; discriminate].
      rewrite forallb_forall in D. apply Forall_forall. intros x I. specialize (D x I). unfold is_digit in D. lia. }
    split; [|split].
    - revert F. apply Forall_impl. auto.
    - intros (u & w & Q). rewrite Q in F. apply Forall_app in F. destruct F as [_ F]. inversion F as [|? ? [F1 _] _]; subst. exfalso. revert F1. vm_compute. intuition.
    - intros u c0 Q. unfold remark in Q. replace (str " choices") with (str " choice" ++ ["s"%char]) in Q by reflexivity. rewrite !app_assoc in Q.
      apply app_inj_tail in Q. destruct Q as [_ <-]. reflexivity.
Qed.

(** The remark on the move can be had with gomill-explain_last_move. *)
Theorem C86_explain ar s args h hs : st_history (p_game s) = hs ++ [h] ->
  obey ar s (str "gomill-explain_last_move") args =
  (s, success (match h_comments h with None => [] | Some t => clean_response t end)).
Proof.
  intros H. change (str "gomill-explain_last_move") with (command_name Explain_last_move).
  rewrite (obey_state ar s Explain_last_move args) by (cbn; tauto). cbn [handle]. unfold handle_explain_last_move. rewrite H, rev_app_distr. cbn [rev app].
  destruct s as [g p]. cbn [p_game p_resign]. destruct (h_comments h); reflexivity.
Qed.
Print Assumptions C86_explain.
Theorem C86_explain_genmove ar1 ar2 s a rest c args : sound s -> interpret_colour a = GOk c ->
  forall s' v, obey ar1 s (str "genmove") (a :: rest) = (s', success v) -> v <> str "resign" ->
  exists pts, empties (p_game s) pts /\ obey ar2 s' (str "gomill-explain_last_move") args = (s', success (remark (List.length pts))).
Proof.
  intros SD IC s' v HO NR. destruct (C86_genmove s SD) as (pts & EM & G). exists pts. split; [exact EM|].
  destruct (G ar1 a rest c IC) as (G1 & G2 & G3). cbv zeta in *.
  destruct (draw_below (ar_draw ar1) (p_resign s)) eqn:DB.
  - apply draw_spec in DB. rewrite (G1 DB) in HO. apply pair_equal_spec in HO. destruct HO as [_ HO]. unfold success in HO. congruence.
  - assert (ND : ~ resigns (ar_draw ar1) (p_resign s)) by (intros R; apply draw_spec in R; congruence).
    destruct pts as [|q0 pts0]; [rewrite (G2 ND eq_refl) in HO; apply pair_equal_spec in HO; destruct HO as [_ HO]; discriminate HO|].
    destruct (G3 ND ltac:(discriminate)) as (q & v' & s1 & _ & _ & HO' & _ & _ & OM).
    rewrite HO' in HO. apply pair_equal_spec in HO. destruct HO as [<- _].
    destruct OM as [_ OM]. apply (f_equal i_history) in OM. cbn [info_of i_history] in OM.
    rewrite (C86_explain ar2 s1 args _ _ OM). cbn [h_comments].
    assert (CR : forall n, clean_response (remark n) = remark n); [|rewrite CR; reflexivity].
    intros n. apply clean_remark.
Qed.
Print Assumptions C86_explain_genmove.

(** gomill-resign_p sets the probability for the rest of the session. *)
Theorem C86_resign_p ar s args :
  (args = [] -> obey ar s (str "gomill-resign_p") args = (s, fails (str "invalid arguments"))) /\
  (forall a rest f, args = a :: rest -> interpret_float a = GOk f ->
     obey ar s (str "gomill-resign_p") args = (mkProgram (p_game s) f, success [])) /\
  (forall a rest, args = a :: rest -> (forall f, interpret_float a <> GOk f) ->
     exists m, obey ar s (str "gomill-resign_p") args = (s, fails m)).
Proof.
  assert (O : obey ar s (str "gomill-resign_p") args = (let (s', r) := handle_resign_p s args in (s', answer r)))
    by (rewrite (obey_get ar s _ _ (User handle_resign_p)) by reflexivity; reflexivity).
  rewrite O. unfold handle_resign_p. split; [intros ->; reflexivity|]. split.
  - intros a rest f -> F. rewrite F. reflexivity.
  - intros a rest -> N. destruct (interpret_float a) as [f|m|m|m|m] eqn:F; [elim (N f eq_refl)| | | |];
      [eexists; reflexivity| | |]; revert F; unfold interpret_float; destruct (SgfPropsModel.interpret_real a); discriminate.
Qed.
Print Assumptions C86_resign_p.
(** With a probability of 0 or less it never resigns, with 1 or more always; it starts with 0.1. *)
Theorem C86_probability draw m d : 0 <= draw < 2 ^ 53 ->
  (m <= 0 -> ~ resigns draw (m, d)) /\ (10 ^ Z.of_nat d <= m -> resigns draw (m, d)) /\
  (forall s, new_program = Ok s -> p_resign s = (1, 1%nat)).
Proof.
  intros B. unfold resigns. cbn [fst snd]. assert (P : 0 < 10 ^ Z.of_nat d) by (apply Z.pow_pos_nonneg; lia). set (x := 10 ^ Z.of_nat d) in *.
  set (y := 2 ^ 53) in *. split; [|split].
  - intros M. nia.
  - intros M. nia.
  - intros s H. unfold new_program in H. destruct (new_state (Some [9; 13; 19])) as [g|e]; cbn [bind] in H; [|discriminate]. assert (s = mkProgram g (1, 1%nat)) as -> by congruence. reflexivity.
Qed.
Print Assumptions C86_probability.

(** Every other command is that of the game state (C37, C38), or changes nothing. *)
Theorem C86_commands ar s name args s' r : obey ar s name args = (s', r) ->
  (forall c, In c state_commands -> name = command_name c -> exists g x, handle (env_of ar (p_resign s)) c (p_game s) args = (g, x) /\
     s' = mkProgram g (p_resign s) /\
     match x with
     | GOk None => r = success [] | GOk (Some t) => r = success (clean_response t)
     | GError m | GRaise m => exists t, r = fails t
     | GFatal m => exists t, r = (true, t, true) | GQuit m => exists t, r = (false, t, true)
     end) /\
  (~ In name state_names -> p_game s' = p_game s /\ (name <> str "gomill-resign_p" -> s' = s)).
Proof.
  intros H. split.
  - intros c I ->. rewrite (obey_state ar s c args I) in H. destruct (handle (env_of ar (p_resign s)) c (p_game s) args) as [g x].
    exists g, x. split; [reflexivity|]. apply pair_equal_spec in H. destruct H as [<- <-]. split; [reflexivity|].
    destruct x as [[t|]|m|m|m|m]; cbn [answer]; try reflexivity; eexists; reflexivity.
  - intros N. destruct (obey_other ar s name args N) as [A B]. rewrite H in A, B. cbn [fst] in A, B. split; [exact A|].
    intros NR. specialize (B NR). destruct s as [s1 s2], s' as [s3 s4]. cbn [p_game p_resign] in A, B. congruence.
Qed.
Print Assumptions C86_commands.

(** The board sizes are 9 (at first), 13 and 19. *)
Theorem C86_sizes ar s a rest n : served_any (p_game s) -> st_sizes (p_game s) = [9; 13; 19] -> interpret_int a = GOk n ->
  (n = 9 \/ n = 13 \/ n = 19 <-> exists s', obey ar s (str "boardsize") (a :: rest) = (s', success [])) /\
  (forall s', obey ar s (str "boardsize") (a :: rest) = (s', success []) -> new_game_on n (p_game s) (p_game s') /\ sound s').
Proof.
  intros SA SZ IA. change (str "boardsize") with (command_name Boardsize). rewrite (obey_state ar s Boardsize (a :: rest)) by (cbn; tauto).
  set (env := env_of ar (p_resign s)).
  assert (YES : In n (st_sizes (p_game s)) -> exists g, handle env Boardsize (p_game s) (a :: rest) = (g, GOk None) /\ new_game_on n (p_game s) g).
  { intros I. destruct (proj2 (C37_a_new_game_can_always_be_started env (p_game s) SA) a rest n IA I) as (g & H & NG & _). eauto. }
  assert (NO : ~ In n (st_sizes (p_game s)) -> exists m, handle env Boardsize (p_game s) (a :: rest) = (p_game s, GError m)).
  { intros N. cbn [handle]. unfold handle_boardsize, get_or, first_arg. rewrite IA.
    assert (X : existsb (Z.eqb n) (st_sizes (p_game s)) = false).
    { apply not_true_iff_false. intros X. apply N. apply existsb_exists in X. destruct X as (x & I & E). apply Z.eqb_eq in E. subst x. exact I. }
    rewrite X. eexists. reflexivity. }
  rewrite SZ in YES, NO.
  assert (INN : In n [9; 13; 19] <-> n = 9 \/ n = 13 \/ n = 19) by (cbn [In]; intuition).
  destruct (in_dec Z.eq_dec n [9; 13; 19]) as [I|N].
  - destruct (YES I) as (g & H & NG). rewrite H. split.
    + split; [intros _; eexists; reflexivity|intros _; apply INN; exact I].
    + intros s' E. apply pair_equal_spec in E. destruct E as [<- _]. split; [exact NG|]. split; cbn [p_game].
      * apply (sv_restart env Boardsize (a :: rest) (p_game s) g SA H). right; reflexivity.
      * destruct NG as (b & _ & NG). apply (f_equal i_sizes) in NG. cbn [info_of i_sizes] in NG. congruence.
  - destruct (NO N) as (m & H). rewrite H. split.
    + split; [intros X; apply INN in X; contradiction|]. intros (s' & E). apply pair_equal_spec in E. destruct E as [_ E]. discriminate E.
    + intros s' E. apply pair_equal_spec in E. destruct E as [_ E]. discriminate E.
Qed.
Print Assumptions C86_sizes.

Lemma new_state_sizes l g : new_state (Some l) = Ok g -> st_sizes g = l.
Proof.
  unfold new_state. destruct (py_min l) as [z|e]; cbn [bind]; [|discriminate]. destruct (new_board z) as [b|e]; cbn [bind]; [|discriminate].
  intros H. match type of H with Ok ?x = Ok _ => assert (g = x) as -> by congruence end. reflexivity.
Qed.

(** In every session with no loadsgf command (see C37 for those that have one) the state is sound. *)
Theorem C86_sessions s0 cmds : new_program = Ok s0 -> Forall (fun c => snd (fst c) <> str "loadsgf") cmds ->
  sound (fst (obey_all s0 cmds)).
Proof.
  intros N F.
  assert (START : sound s0).
  { unfold new_program in N. destruct (new_state (Some [9; 13; 19])) as [g|e] eqn:NS; cbn [bind] in N; [|discriminate]. assert (s0 = mkProgram g (1, 1%nat)) as -> by congruence.
    split; cbn [p_game]; [exact (sv_new _ _ NS)|]. exact (new_state_sizes _ _ NS). }
  clear N. revert s0 START. induction F as [|[[ar name] args] cmds NL F IH]; intros s SD; [exact SD|]. cbn [obey_all fst snd] in *.
  destruct (obey ar s name args) as [s' r] eqn:O.
  assert (SD' : sound s').
  { destruct SD as [S SZ]. destruct (C86_commands ar s name args s' r O) as [A B].
    destruct (in_dec (list_eq_dec ascii_dec) name state_names) as [I|NI].
    - apply in_map_iff in I. destruct I as (c & E & Ic). destruct (A c Ic (eq_sym E)) as (g & x & H & -> & _). split; cbn [p_game].
      + apply (sv_command _ c args (p_game s) g x S H). intros ->. elim NL. rewrite <- E. reflexivity.
      + pose proof (handle_sizes (env_of ar (p_resign s)) c (p_game s) args) as K. rewrite H in K. destruct K as [K _]. cbn [fst] in K. congruence.
    - destruct (B NI) as [E _]. split; rewrite E; assumption. }
  destruct (snd r); [exact SD'|]. specialize (IH s' SD'). destruct (obey_all s' cmds) as [s'' rs]. exact IH.
Qed.
Print Assumptions C86_sessions.

Definition ar0 (draw : Z) (choice : nat) : around := mkAround (fun _ => O) (fun _ => None) draw choice (str "0.7") (str "2012-01-01") (fun _ => None).
Definition demo_session : list (around * bytes * list bytes) :=
  [ (ar0 (2 ^ 52) 100, str "genmove", [str "b"]); (ar0 0 0, str "gomill-explain_last_move", []); (ar0 0 0, str "genmove", [str "w"]);
    (ar0 0 0, str "gomill-resign_p", [str "0"]); (ar0 0 100, str "reg_genmove", [str "w"]); (ar0 0 0, str "gomill-resign_p", []);
    (ar0 0 0, str "boardsize", [str "11"]); (ar0 0 0, str "boardsize", [str "13"]); (ar0 0 0, str "quit", []); (ar0 0 0, str "name", []) ].
Example C86_demo :
  match new_program with
  | Err _ => False
  | Ok s => sound (fst (obey_all s demo_session)) /\
      snd (obey_all s demo_session) =
        [success (str "B3"); success (str "chosen at random from 81 choices"); success (str "resign"); success []; success (str "D3"); fails (str "invalid arguments");
         fails (str "unacceptable size"); success []; (false, [], true)]
  end.
Proof.
  destruct new_program as [s|e] eqn:N; [|vm_compute in N; discriminate]. split.
  - apply C86_sessions; [exact N|]. repeat constructor; discriminate.
  - vm_compute in N. assert (E : Ok (A:=program) s = new_program) by (rewrite <- N; vm_compute; reflexivity). clear N.
    revert E. generalize s. clear s. intros s E. assert (E' : obey_all s demo_session = match new_program with Ok s => obey_all s demo_session | Err _ => (s, []) end) by (rewrite <- E; reflexivity).
    rewrite E'. vm_compute. reflexivity.
Qed.
