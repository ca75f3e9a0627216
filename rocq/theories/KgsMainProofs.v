(** The two commands of a kgsGtp proxy. *)
From Verif Require Import Base Bytes PyStr Dict CommonModel GtpModel GtpSpec ControllerModel ControllerSpec ControllerProofs
  ProxyModel ProxySpec ProxyProofs RingFilesModel KgsModel KgsSpec KgsProofs KgsStartProofs.
From Verif Require SaveSpec.

Lemma escape_kgs n : escape_for_savesgf n = kgs_coded n.
Proof.
  unfold escape_for_savesgf, replace_char. induction n as [|c n IH]; [reflexivity|].
  cbn [map List.concat kgs_coded]. rewrite map_app, concat_app, IH. f_equal.
  unfold char_bs, char_sp. destruct (ceqb_spec c "\"%char) as [->|N]; [reflexivity|].
  cbn [map List.concat app]. destruct (ceqb_spec c " "%char) as [->|N2]; reflexivity.
Qed.

Lemma games_over_snoc cmds command args : games_over (cmds ++ [(command, args)]) =
  (games_over cmds + if bytes_eqb command (str "kgs-game_over") then 1 else 0)%nat.
Proof.
  induction cmds as [|[c a] cmds IH]; cbn [games_over app].
  - destruct (bytes_eqb command (str "kgs-game_over")); reflexivity.
  - rewrite IH. destruct (bytes_eqb c (str "kgs-game_over")); lia.
Qed.

Lemma free_fun t existing i f i' f' : free t existing i f -> free t existing i' f' -> f = f'.
Proof.
  intros (R & T & N & F) (R' & T' & N' & F').
  destruct (Z.lt_trichotomy i i') as [L|[->|L]]; [|congruence|].
  - destruct (F' i) as (g & Tg & I); [lia|]. assert (g = f) by congruence. subst. contradiction.
  - destruct (F i') as (g & Tg & I); [lia|]. assert (g = f') by congruence. subst. contradiction.
Qed.

Lemma choose_ok t existing f : choose_filename t existing = Ok f <-> exists i, free t existing i f.
Proof.
  unfold choose_filename. split.
  - intros H. apply choose_from_ok in H as (j & R & T & N & F). exists j. rewrite Z2Nat.id in R by lia.
    split; [lia|]. split; [exact T|]. split; [exact N|]. intros k K. apply F. lia.
  - intros (i & Fr). destruct (choose_from t existing 0 (Z.to_nat 10000)) as [g|e] eqn:H.
    + f_equal. pose proof H as H'. apply choose_from_ok in H' as (j & R & T & N & F). rewrite Z2Nat.id in R by lia.
      apply (free_fun t existing j g i f); [|exact Fr]. split; [lia|]. split; [exact T|]. split; [exact N|]. intros k K. apply F. lia.
    + exfalso. destruct Fr as (R & T & N & F). apply choose_from_err in H as [[_ A]|[_ (j & Rj & Tj & A)]].
      * destruct (A i) as (g & Tg & I); [rewrite Z2Nat.id by lia; lia|]. assert (g = f) by congruence. subst. contradiction.
      * destruct (Z.lt_trichotomy i j) as [L|[->|L]]; [|congruence|].
        -- destruct (A i) as (g & Tg & I); [lia|]. assert (g = f) by congruence. subst. contradiction.
        -- destruct (F j) as (g & Tg & _); [lia|]. congruence.
Qed.

Section Kgs.
Context {X : Type}.
Variable ch : channel X.
Variables (tb : exn -> bytes) (tbb tbk : bytes -> bytes) (ld : nat -> list bytes + exn) (cfg : config).
Notation PX := (proxy (X * list cevent) kgs).
Notation E0 := (make_engine (recorded ch) tb).
Notation KE l := (add_kgs_commands (recorded ch) tb tbb tbk ld cfg (E0 l)).
Notation be := (str "back end").

(** The number of listings so far, when the games are saved. *)
Lemma game_over_listings (p : PX) args p' r dir : kc_save cfg = Some dir -> handle_game_over (recorded ch) tb ld cfg p args = (p', r) ->
  k_listings (px_user p') = S (k_listings (px_user p)).
Proof.
  intros Sv. unfold handle_game_over. rewrite Sv.
  destruct (ld (k_listings (px_user p))) as [existing|e].
  2:{ intros H. apply pair_equal_spec in H as [<- _]. reflexivity. }
  destruct (choose_filename (kc_template cfg) existing) as [f|e].
  2:{ intros H. apply pair_equal_spec in H as [<- _]. reflexivity. }
  destruct (handle_command (recorded ch) tb _ _ _) as [p3 r3] eqn:Hc. apply handle_user in Hc.
  destruct r3; intros H; apply pair_equal_spec in H as [<- _]; unfold map_user; cbn [px_user logged k_listings]; rewrite Hc; reflexivity.
Qed.

Lemma run_listings l (p : PX) command args p' reply dir : kc_save cfg = Some dir -> run_command (KE l) p command args = (p', reply) ->
  k_listings (px_user p') = (k_listings (px_user p) + if bytes_eqb command (str "kgs-game_over") then 1 else 0)%nat.
Proof.
  intros Sv R. unfold run_command in R. destruct (GtpModel.do_command (KE l) p command args) as [p1 r1] eqn:D.
  assert (p1 = p') by congruence. subst p1. clear R. unfold GtpModel.do_command in D.
  destruct (bytes_eqb_spec command (str "kgs-game_over")) as [->|NK].
  - rewrite kgs_game_over in D. cbn [call_handler] in D.
    destruct (handle_game_over (recorded ch) tb ld cfg p args) as [p2 r2] eqn:G. assert (p2 = p') by congruence. subst p2.
    rewrite (game_over_listings _ _ _ _ _ Sv G). lia.
  - rewrite Nat.add_0_r. destruct (bytes_eqb_spec command (str "genmove")) as [->|NG].
    + rewrite kgs_genmove in D. cbn [call_handler] in D.
      destruct (handle_genmove (recorded ch) tb tbb tbk p args) as [p2 r2] eqn:G. assert (p2 = p') by congruence. subst p2.
      rewrite (genmove_user _ _ _ _ _ _ _ _ G). destruct (asked (str "genmove") args); reflexivity.
    + rewrite (customised_get _ _ _ command (kgs_customised ch tb tbb tbk ld cfg l)) in D by (cbn [In]; intuition congruence).
      rewrite make_engine_get in D.
      repeat match type of D with context [if bytes_eqb command ?k then _ else _] =>
        destruct (bytes_eqb_spec command k) as [->|?] end; cbn [call_handler] in D.
      * destruct (handle_passthrough (recorded ch) tb p args) as [p2 r2] eqn:G. assert (p2 = p') by congruence. subst p2.
        unfold handle_passthrough in G. destruct args as [|w rest].
        -- assert (p = p') by congruence. subst. auto.
        -- rewrite (handle_user _ _ _ _ _ _ _ G). reflexivity.
      * destruct (handle_quit (recorded ch) tb p args) as [p2 r2] eqn:G. assert (p2 = p') by congruence. subst p2.
        rewrite (quit_user _ _ _ _ _ _ G). reflexivity.
      * assert (p = p') by congruence. subst. auto.
      * assert (p = p') by congruence. subst. auto.
      * assert (p = p') by congruence. subst. auto.
      * destruct (in_dec (list_eq_dec ascii_dec) command l); cbn [call_handler back_end_handler] in D.
        -- destruct (handle_command (recorded ch) tb p command args) as [p2 r2] eqn:G. assert (p2 = p') by congruence. subst p2.
           rewrite (handle_user _ _ _ _ _ _ _ G). reflexivity.
        -- assert (p = p') by congruence. subst. auto.
Qed.

Lemma session_listings l (p : PX) cmds p' dir : kc_save cfg = Some dir -> session (KE l) p cmds p' -> k_listings (px_user p) = O ->
  k_listings (px_user p') = games_over cmds.
Proof.
  intros Sv H N. induction H as [|cmds p1 command args p2 reply S1 IH R]; [exact N|].
  rewrite games_over_snoc, (run_listings l p1 command args p2 reply dir Sv R), IH. reflexivity.
Qed.

Lemma handled_here (p p' : PX) evs0 u command args r : here p evs0 u -> handle_command (recorded ch) tb p command args = (p', r) ->
  exists evs, here p' (evs0 ++ evs) u /\ exchange command args evs /\
    match evs with
    | [EvSend _ _ None; EvGet (inl (false, t))] => r = GOk (Some t)
    | [EvSend _ _ None; EvGet (inl (true, t))] => r = GError t
    | [EvSend _ _ (Some (XChan k t))] | [EvSend _ _ None; EvGet (inr (XChan k t))] =>
        exists msg, r = GFatal msg /\ message_about be msg t
    | [EvSend _ _ (Some (XOther e))] | [EvSend _ _ None; EvGet (inr (XOther e))] => r = GRaise (tb e)
    | _ => False
    end.
Proof.
  intros Hh H. unfold handle_command in H. destruct (pass_command (recorded ch) p command args) as [p1 r1] eqn:P.
  destruct (here_pass ch _ _ _ _ _ _ _ Hh P) as (evs & H1 & Ex & M). apply pair_equal_spec in H as [<- <-].
  exists evs. split; [exact H1|]. split; [exact Ex|].
  inversion Ex as [[k t|e]|[[[|] t]|[k t|e]]]; subst evs; cbv iota in M.
  - destruct M as (msg & -> & Mg). exists msg. split; [reflexivity|exact Mg].
  - subst r1. reflexivity.
  - subst r1. reflexivity.
  - subst r1. reflexivity.
  - destruct M as (msg & -> & Mg). exists msg. split; [reflexivity|exact Mg].
  - subst r1. reflexivity.
Qed.

Lemma save_arguments_spec k oc name path : k_colour k = oc -> k_name k = name ->
  save_arguments k path = path :: player_option oc name.
Proof.
  intros <- <-. unfold save_arguments, player_option. destruct (k_colour k) as [[]|]; destruct (k_name k); try reflexivity;
    rewrite escape_kgs; reflexivity.
Qed.

(** kgs-game_over, when the games are saved. *)
Lemma game_over_proof l (p p' : PX) evs0 u args dir is_error text ended : kc_save cfg = Some dir ->
  here p evs0 u -> run_command (KE l) p (str "kgs-game_over") args = (p', (is_error, text, ended)) ->
  ended = false /\ exists evs u', here p' (evs0 ++ evs) u' /\
    match ld (k_listings u) with
    | inr _ => evs = [] /\ is_error = true /\ k_log u' = k_log u
    | inl existing =>
        (forall i f, free (kc_template cfg) existing i f ->
           exchange (str "gomill-savesgf") (join_path dir f :: player_option (k_colour u) (k_name u)) evs /\
           (existsb unexpected evs = false -> is_error = false /\ text = []) /\
           (existsb unexpected evs = true -> is_error = true) /\
           exists lines, save_log evs lines /\
             k_log u' = k_log u ++ (str "kgs_proxy: saving game record to " ++ join_path dir f) :: lines) /\
        ((forall i f, ~ free (kc_template cfg) existing i f) -> evs = [] /\ is_error = true /\ k_log u' = k_log u)
    end.
Proof.
  intros Sv Hh R.
  destruct (handle_game_over (recorded ch) tb ld cfg p args) as [p1 r1] eqn:G.
  rewrite (run_user (KE l) p _ args _ p1 r1 (kgs_game_over ch tb tbb tbk ld cfg l) G), (kgs_fatal ch tb tbb tbk ld cfg l) in R.
  unfold handle_game_over in G. rewrite Sv in G.
  assert (Us : px_user p = u) by (destruct Hh as (_ & _ & Us); exact Us). rewrite Us in G.
  destruct (ld (k_listings u)) as [existing|e].
  2:{ apply pair_equal_spec in G as [<- <-]. apply pair_equal_spec in R as [<- R].
      apply triple in R as (-> & _ & ->). split; [reflexivity|]. exists [], (listed u). rewrite app_nil_r.
      split; [apply (here_map listed); exact Hh|]. auto. }
  destruct (choose_filename (kc_template cfg) existing) as [f|e] eqn:Ch.
  - pose proof (proj1 (choose_ok _ _ _) Ch) as (i0 & Fr).
    apply (here_map listed) in Hh.
    apply (here_map (logged (str "kgs_proxy: saving game record to " ++ join_path dir f))) in Hh.
    destruct (handle_command (recorded ch) tb _ _ _) as [p3 r3] eqn:Hc.
    destruct (handled_here _ _ _ _ _ _ _ Hh Hc) as (evs & H3 & Ex & M).
    assert (Us2 : px_user (map_user (logged (str "kgs_proxy: saving game record to " ++ join_path dir f)) (map_user listed p)) =
        logged (str "kgs_proxy: saving game record to " ++ join_path dir f) (listed u)) by (unfold map_user; cbn [px_user]; rewrite Us; reflexivity).
    rewrite Us2, (save_arguments_spec _ (k_colour u) (k_name u)) in Ex by reflexivity.
    set (u1 := logged (str "kgs_proxy: saving game record to " ++ join_path dir f) (listed u)) in *.
    assert (K : forall lines u', save_log evs lines -> k_log u' = k_log u1 ++ lines -> here p' (evs0 ++ evs) u' ->
      (existsb unexpected evs = false -> is_error = false /\ text = []) -> (existsb unexpected evs = true -> is_error = true) ->
      ended = false -> ended = false /\ exists evs u', here p' (evs0 ++ evs) u' /\
        (forall i f, free (kc_template cfg) existing i f ->
           exchange (str "gomill-savesgf") (join_path dir f :: player_option (k_colour u) (k_name u)) evs /\
           (existsb unexpected evs = false -> is_error = false /\ text = []) /\
           (existsb unexpected evs = true -> is_error = true) /\
           exists lines, save_log evs lines /\
             k_log u' = k_log u ++ (str "kgs_proxy: saving game record to " ++ join_path dir f) :: lines) /\
        ((forall i f, ~ free (kc_template cfg) existing i f) -> evs = [] /\ is_error = true /\ k_log u' = k_log u)).
    { intros lines u' L Lg Hp A B C. split; [exact C|]. exists evs, u'. split; [exact Hp|]. split.
      - intros i f' Fr'. rewrite (free_fun _ _ _ _ _ _ Fr' Fr). split; [exact Ex|]. split; [exact A|]. split; [exact B|].
        exists lines. split; [exact L|]. rewrite Lg. unfold u1. cbn [logged listed k_log]. rewrite <- app_assoc. reflexivity.
      - intros N. elim (N _ _ Fr). }
    clear Hh Hc Us Us2.
    inversion Ex as [[k t|e]|[[[|] t]|[k t|e]]]; subst evs; cbv iota in M.
    + destruct M as (msg & -> & Mg). apply pair_equal_spec in G as [<- <-]. apply pair_equal_spec in R as [<- R].
      apply triple in R as (-> & -> & ->). apply (here_map (logged (str "error: " ++ msg))) in H3.
      eapply K; [exists msg; split; [exact Mg|reflexivity]| |exact H3| | |reflexivity]; [reflexivity|auto|discriminate].
    + subst r3. apply pair_equal_spec in G as [<- <-]. apply pair_equal_spec in R as [<- R].
      apply triple in R as (-> & -> & ->).
      eapply K; [reflexivity| |exact H3| | |reflexivity]; [rewrite app_nil_r; reflexivity|discriminate|auto].
    + subst r3. apply pair_equal_spec in G as [<- <-]. apply pair_equal_spec in R as [<- R].
      apply triple in R as (-> & -> & ->). apply (here_map (logged (str "error: " ++ t))) in H3.
      eapply K; [reflexivity| |exact H3| | |reflexivity]; [reflexivity|auto|discriminate].
    + subst r3. apply pair_equal_spec in G as [<- <-]. apply pair_equal_spec in R as [<- R].
      apply triple in R as (-> & -> & ->).
      eapply K; [reflexivity| |exact H3| | |reflexivity]; [rewrite app_nil_r; reflexivity|auto|discriminate].
    + destruct M as (msg & -> & Mg). apply pair_equal_spec in G as [<- <-]. apply pair_equal_spec in R as [<- R].
      apply triple in R as (-> & -> & ->). apply (here_map (logged (str "error: " ++ msg))) in H3.
      eapply K; [exists msg; split; [exact Mg|reflexivity]| |exact H3| | |reflexivity]; [reflexivity|auto|discriminate].
    + subst r3. apply pair_equal_spec in G as [<- <-]. apply pair_equal_spec in R as [<- R].
      apply triple in R as (-> & -> & ->).
      eapply K; [reflexivity| |exact H3| | |reflexivity]; [rewrite app_nil_r; reflexivity|discriminate|auto].
  - apply pair_equal_spec in G as [<- <-]. apply pair_equal_spec in R as [<- R].
    apply triple in R as (-> & _ & ->). split; [reflexivity|]. exists [], (listed u). rewrite app_nil_r.
    split; [apply (here_map listed); exact Hh|]. split; [|auto].
    intros i f Fr. assert (choose_filename (kc_template cfg) existing = Ok f) by (apply choose_ok; eauto). congruence.
Qed.

(** genmove. *)
Lemma genmove_proof l (p p' : PX) evs0 u args is_error text ended :
  here p evs0 u -> run_command (KE l) p (str "genmove") args = (p', (is_error, text, ended)) ->
  ended = false /\
  (args = [] -> p' = p /\ is_error = true /\ text = str "invalid arguments") /\
  (forall a rest, args = a :: rest -> (forall c, ~ names_colour a c) ->
     p' = p /\ is_error = true /\ text = clean_response (str "invalid colour: '" ++ a ++ str "'")) /\
  (forall a rest c, args = a :: rest -> names_colour a c ->
     exists evs u', here p' (evs0 ++ evs) u' /\ k_colour u' = Some c /\ exchange (str "genmove") args evs /\
       match evs with
       | [EvSend _ _ None; EvGet (inl (false, t))] => is_error = false /\ sent_as t text
       | _ => is_error = true /\ exists m, sent_as (str "internal error" ++ char_lf :: m) text
       end).
Proof.
  intros Hh R.
  destruct (handle_genmove (recorded ch) tb tbb tbk p args) as [p1 r1] eqn:G.
  rewrite (run_user (KE l) p _ args _ p1 r1 (kgs_genmove ch tb tbb tbk ld cfg l) G), (kgs_fatal ch tb tbb tbk ld cfg l) in R.
  unfold handle_genmove in G. destruct args as [|a rest].
  - apply pair_equal_spec in G as [<- <-]. apply pair_equal_spec in R as [<- R]. apply triple in R as (-> & -> & ->).
    split; [reflexivity|]. split; [auto|]. split; intros; discriminate.
  - destruct (interpret_colour a) as [c|m|m|m|m] eqn:I.
    + assert (Nc : names_colour a c) by (apply names_interpret; exact I).
      apply (here_map (with_colour c)) in Hh.
      destruct (pass_command (recorded ch) _ _ _) as [p2 r2] eqn:P.
      destruct (here_pass ch _ _ _ _ _ _ _ Hh P) as (evs & H1 & Ex & M). apply pair_equal_spec in G as [<- <-].
      assert (K : p' = p2 -> ended = false ->
       match evs with
       | [EvSend _ _ None; EvGet (inl (false, t))] => is_error = false /\ sent_as t text
       | _ => is_error = true /\ exists m, sent_as (str "internal error" ++ char_lf :: m) text
       end ->
         ended = false /\
         (a :: rest = [] -> p' = p /\ is_error = true /\ text = str "invalid arguments") /\
         (forall a0 rest0, a :: rest = a0 :: rest0 -> (forall c, ~ names_colour a0 c) ->
            p' = p /\ is_error = true /\ text = clean_response (str "invalid colour: '" ++ a0 ++ str "'")) /\
         (forall a0 rest0 c, a :: rest = a0 :: rest0 -> names_colour a0 c ->
            exists evs u', here p' (evs0 ++ evs) u' /\ k_colour u' = Some c /\ exchange (str "genmove") (a :: rest) evs /\
              match evs with
              | [EvSend _ _ None; EvGet (inl (false, t))] => is_error = false /\ sent_as t text
              | _ => is_error = true /\ exists m, sent_as (str "internal error" ++ char_lf :: m) text
              end)).
      { intros -> En W. split; [exact En|]. split; [discriminate|]. split.
        - intros a0 rest0 E N. assert (a0 = a) by congruence. subst a0. elim (N c Nc).
        - intros a0 rest0 c0 E N0. assert (a0 = a) by congruence. subst a0.
          assert (c0 = c) by (apply names_interpret in N0; congruence). subst c0.
          exists evs, (with_colour c u). split; [exact H1|]. split; [reflexivity|]. split; [exact Ex|exact W]. }
      inversion Ex as [[k t|e]|[[[|] t]|[k t|e]]]; subst evs; cbv iota in M.
      * destruct M as (msg & -> & Mg). apply pair_equal_spec in R as [<- R]. apply triple in R as (-> & -> & ->).
        apply K; [reflexivity|reflexivity|]. split; [reflexivity|]. exists (tbk msg). apply sent_as_clean.
      * subst r2. apply pair_equal_spec in R as [<- R]. apply triple in R as (-> & -> & ->).
        apply K; [reflexivity|reflexivity|]. split; [reflexivity|]. exists (tb e). apply sent_as_clean.
      * subst r2. apply pair_equal_spec in R as [<- R]. apply triple in R as (-> & -> & ->).
        apply K; [reflexivity|reflexivity|]. split; [reflexivity|]. exists (tbb t). apply sent_as_clean.
      * subst r2. apply pair_equal_spec in R as [<- R]. apply triple in R as (-> & -> & ->).
        apply K; [reflexivity|reflexivity|]. split; [reflexivity|]. apply sent_as_clean.
      * destruct M as (msg & -> & Mg). apply pair_equal_spec in R as [<- R]. apply triple in R as (-> & -> & ->).
        apply K; [reflexivity|reflexivity|]. split; [reflexivity|]. exists (tbk msg). apply sent_as_clean.
      * subst r2. apply pair_equal_spec in R as [<- R]. apply triple in R as (-> & -> & ->).
        apply K; [reflexivity|reflexivity|]. split; [reflexivity|]. exists (tb e). apply sent_as_clean.
    + assert (Nc : forall c, ~ names_colour a c) by (intros c N; apply names_interpret in N; congruence).
      rewrite (interpret_other a Nc) in I. injection I as <-.
      apply pair_equal_spec in G as [<- <-]. apply pair_equal_spec in R as [<- R]. apply triple in R as (-> & -> & ->).
      split; [reflexivity|]. split; [discriminate|]. split.
      * intros a0 rest0 E _. assert (a0 = a) by congruence. subst a0. auto.
      * intros a0 rest0 c E N. assert (a0 = a) by congruence. subst a0. elim (Nc c N).
    + assert (Nc : forall c, ~ names_colour a c) by (intros c N; apply names_interpret in N; congruence).
      rewrite (interpret_other a Nc) in I. discriminate I.
    + assert (Nc : forall c, ~ names_colour a c) by (intros c N; apply names_interpret in N; congruence).
      rewrite (interpret_other a Nc) in I. discriminate I.
    + assert (Nc : forall c, ~ names_colour a c) by (intros c N; apply names_interpret in N; congruence).
      rewrite (interpret_other a Nc) in I. discriminate I.
Qed.

End Kgs.
