(** Starting a kgsGtp proxy, and its two commands. *)
From Verif Require Import Base Bytes PyStr Dict CommonModel GtpModel GtpSpec ControllerModel ControllerSpec ControllerProofs
  ProxyModel ProxySpec ProxyProofs RingFilesModel KgsModel KgsSpec KgsProofs.

Section Kgs.
Context {X : Type}.
Variable ch : channel X.
Variables (tb : exn -> bytes) (tbb tbk : bytes -> bytes) (ld : nat -> list bytes + exn) (cfg : config).
Notation PX := (proxy (X * list cevent) kgs).
Notation E0 := (make_engine (recorded ch) tb).
Notation KE l := (add_kgs_commands (recorded ch) tb tbb tbk ld cfg (E0 l)).
Notation be := (str "back end").

Definition here (p : PX) (evs : list cevent) (u : kgs) : Prop := connected p be [] /\ events p = evs /\ px_user p = u.

Lemma here_pass (p p' : PX) evs0 u command args r : here p evs0 u -> pass_command (recorded ch) p command args = (p', r) ->
  exists evs, here p' (evs0 ++ evs) u /\ exchange command args evs /\
    match evs with
    | [EvSend _ _ None; EvGet (inl (false, t))] => r = PRet t
    | [EvSend _ _ None; EvGet (inl (true, t))] => r = PBad t
    | [EvSend _ _ (Some (XChan k t))] | [EvSend _ _ None; EvGet (inr (XChan k t))] =>
        exists msg, r = PBack msg (Some (By_channel k)) /\ message_about be msg t
    | [EvSend _ _ (Some (XOther e))] | [EvSend _ _ None; EvGet (inr (XOther e))] => r = PRaise e
    | _ => False
    end.
Proof.
  intros (C & Ev & Us) P. destruct (pass_proof ch p p' be [] command args r C P) as (evs & T & Ex & _ & A).
  exists evs. split; [|split; [exact Ex|exact A]].
  split; [exact (pass_connected ch p be [] command args p' r C P)|].
  destruct T as (c & c' & Pc & Pc' & Us' & Tr & _). split; [|congruence].
  unfold events in *. rewrite Pc in Ev. rewrite Pc', Tr, Ev. reflexivity.
Qed.

Lemma here_map f (p : PX) evs u : here p evs u -> here (map_user f p) evs (f u).
Proof. intros (C & Ev & <-). split; [exact C|]. split; [exact Ev|reflexivity]. Qed.

Lemma here_has (p p' : PX) evs0 u k r : here p evs0 u -> (forall c, px_back p = Some c -> dget k (c_known c) = None) ->
  back_end_has_command (recorded ch) p k = (p', r) ->
  exists evs, here p' (evs0 ++ evs) u /\ exchange (str "known_command") [k] evs /\
    match evs with
    | [EvSend _ _ None; EvGet (inl _)] => r = PRet (says_yes evs)
    | [EvSend _ _ (Some (XChan c t))] | [EvSend _ _ None; EvGet (inr (XChan c t))] =>
        exists msg, r = PBack msg (Some (By_channel c)) /\ message_about be msg t
    | [EvSend _ _ (Some (XOther e))] | [EvSend _ _ None; EvGet (inr (XOther e))] => r = PRaise e
    | _ => False
    end.
Proof.
  intros ((c & Pc & Nm & Al & Cl) & Ev & Us) K H. specialize (K c Pc).
  unfold back_end_has_command in H. rewrite Pc in H. unfold known_command, known_command_with in H. rewrite K in H.
  unfold plain_do_command in H. rewrite Al in H. change (translate [] k) with k in H.
  destruct (ControllerModel.do_command (recorded ch) c (str "known_command") [k]) as [c1 r1] eqn:D.
  destruct (do_command_open ch c c1 _ _ r1 Cl D) as (evs & T & Ex & O & (N & _ & A & _) & Cl' & _).
  rewrite Al in Ex, O. change (meaning [] (str "known_command")) with (str "known_command") in Ex, O.
  unfold events in Ev. rewrite Pc in Ev.
  exists evs.
  assert (Hh : forall c2 r2, (p', r) = (mkProxy (Some c2) (px_user p), r2) -> trace c2 = trace c1 -> c_name c2 = c_name c1 ->
     c_aliases c2 = c_aliases c1 -> c_closed c2 = c_closed c1 -> here p' (evs0 ++ evs) u /\ r = r2).
  { intros c2 r2 E T2 N2 A2 C2. apply pair_equal_spec in E as [-> ->]. split; [|reflexivity]. split; [|split].
    - exists c2. cbn [px_back]. repeat split; congruence.
    - unfold events. cbn [px_back]. rewrite T2, T, Ev. reflexivity.
    - exact Us. }
  inversion Ex as [[kd t|e]|[[[|] t]|[kd t|e]]]; subst evs; cbn [outcome] in O.
  - destruct O as (msg & -> & M). rewrite Nm in M. destruct (Hh c1 _ (eq_sym H) eq_refl eq_refl eq_refl eq_refl) as [Q1 Q2].
    split; [exact Q1|]. split; [exact Ex|]. exists msg. split; [exact Q2|exact M].
  - subst r1. destruct (Hh c1 _ (eq_sym H) eq_refl eq_refl eq_refl eq_refl) as [Q1 Q2].
    split; [exact Q1|]. split; [exact Ex|]. exact Q2.
  - destruct O as (msg & -> & M). edestruct (Hh _ _ (eq_sym H)) as [Q1 Q2]; try reflexivity.
    split; [exact Q1|]. split; [exact Ex|]. exact Q2.
  - subst r1. edestruct (Hh _ _ (eq_sym H)) as [Q1 Q2]; try reflexivity.
    split; [exact Q1|]. split; [exact Ex|]. exact Q2.
  - destruct O as (msg & -> & M). rewrite Nm in M. destruct (Hh c1 _ (eq_sym H) eq_refl eq_refl eq_refl eq_refl) as [Q1 Q2].
    split; [exact Q1|]. split; [exact Ex|]. exists msg. split; [exact Q2|exact M].
  - subst r1. destruct (Hh c1 _ (eq_sym H) eq_refl eq_refl eq_refl eq_refl) as [Q1 Q2].
    split; [exact Q1|]. split; [exact Ex|]. exact Q2.
Qed.

(** What can happen to a command that is passed on, in short. *)
Lemma split3 {A} (evs : list cevent) command args (r : pres A) (ok : bytes -> pres A) (bad : bytes -> pres A) : exchange command args evs ->
    match evs with
    | [EvSend _ _ None; EvGet (inl (false, t))] => r = ok t
    | [EvSend _ _ None; EvGet (inl (true, t))] => r = bad t
    | [EvSend _ _ (Some (XChan k t))] | [EvSend _ _ None; EvGet (inr (XChan k t))] =>
        exists msg, r = PBack msg (Some (By_channel k)) /\ message_about be msg t
    | [EvSend _ _ (Some (XOther e))] | [EvSend _ _ None; EvGet (inr (XOther e))] => r = PRaise e
    | _ => False
    end ->
  (exists t, evs = answered command args t /\ r = ok t) \/ (exists t, evs = failed command args t /\ r = bad t) \/
  (exists msg t k, r = PBack msg (Some (By_channel k)) /\ broke evs t /\ message_about be msg t) \/
  (exists e, r = PRaise e /\ astray evs).
Proof.
  intros Ex H. inversion Ex as [[k t|e]|[[[|] t]|[k t|e]]]; subst evs.
  - destruct H as (msg & -> & M). right; right; left. exists msg, t, k. split; [reflexivity|]. split; [|exact M].
    exists [], (EvSend command args (Some (XChan k t))). split; reflexivity.
  - right; right; right. exists e. split; [exact H|]. exists [], (EvSend command args (Some (XOther e))). split; reflexivity.
  - right; left. exists t. split; [reflexivity|exact H].
  - left. exists t. split; [reflexivity|exact H].
  - destruct H as (msg & -> & M). right; right; left. exists msg, t, k. split; [reflexivity|]. split; [|exact M].
    exists [EvSend command args None], (EvGet (inr (XChan k t))). split; reflexivity.
  - right; right; right. exists e. split; [exact H|]. exists [EvSend command args None], (EvGet (inr (XOther e))). split; reflexivity.
Qed.

Lemma broke_app a b t : broke b t -> broke (a ++ b) t.
Proof. intros (pre & ev & -> & H). exists (a ++ pre), ev. rewrite app_assoc. auto. Qed.
Lemma astray_app a b : astray b -> astray (a ++ b).
Proof. intros (pre & ev & -> & H). exists (a ++ pre), ev. rewrite app_assoc. auto. Qed.

Lemma here_naming (p p' : PX) evs0 u r : here p evs0 u -> initialise_name (recorded ch) p = (p', r) ->
  exists evs n, here p' (evs0 ++ evs) (with_name n u) /\
    ((r = PRet tt /\ naming evs n) \/
     (exists msg t k, r = PBack msg (Some (By_channel k)) /\ broke evs t /\ message_about be msg t) \/
     (exists e, r = PRaise e /\ astray evs)).
Proof.
  intros Hh H. unfold initialise_name in H.
  apply (here_map (with_name None)) in Hh.
  destruct (pass_command (recorded ch) (map_user (with_name None) p) (str "name") []) as [p1 r1] eqn:P1.
  destruct (here_pass _ _ _ _ _ _ _ Hh P1) as (evs1 & H1 & Ex1 & M1).
  destruct (split3 _ _ _ _ PRet PBad Ex1 M1) as [(n & E1 & R1)|[(m & E1 & R1)|[(msg & t & k & R1 & Br & Mg)|(e & R1 & As)]]]; subst r1.
  - destruct (pass_command (recorded ch) (map_user (with_name (Some n)) p1) (str "version") []) as [p2 r2] eqn:P2.
    apply (here_map (with_name (Some n))) in H1.
    destruct (here_pass _ _ _ _ _ _ _ H1 P2) as (evs2 & H2 & Ex2 & M2).
    change (with_name (Some n) (with_name None u)) with (with_name (Some n) u) in H2.
    rewrite <- app_assoc in H2.
    destruct (split3 _ _ _ _ PRet PBad Ex2 M2) as [(v & E2 & R2)|[(m & E2 & R2)|[(msg & t & k & R2 & Br & Mg)|(e & R2 & As)]]]; subst r2.
    + set (s := shorten_version n v) in *. apply pair_equal_spec in H as [<- <-].
      exists (evs1 ++ evs2), (Some (n ++ str ":" ++ s)). split.
      * apply (here_map (with_name (Some (n ++ str ":" ++ s)))) in H2. exact H2.
      * left. split; [reflexivity|]. subst evs1 evs2. apply (na_both n v s). apply shorten_spec.
    + apply pair_equal_spec in H as [<- <-]. exists (evs1 ++ evs2), (Some n). split; [exact H2|].
      left. split; [reflexivity|]. subst evs1 evs2. apply na_name.
    + apply pair_equal_spec in H as [<- <-]. exists (evs1 ++ evs2), (Some n). split; [exact H2|].
      right; left. exists msg, t, k. split; [reflexivity|]. split; [apply broke_app; exact Br|exact Mg].
    + apply pair_equal_spec in H as [<- <-]. exists (evs1 ++ evs2), (Some n). split; [exact H2|].
      right; right. exists e. split; [reflexivity|apply astray_app; exact As].
  - apply pair_equal_spec in H as [<- <-]. exists evs1, None. split; [exact H1|].
    left. split; [reflexivity|]. subst evs1. apply na_none.
  - apply pair_equal_spec in H as [<- <-]. exists evs1, None. split; [exact H1|].
    right; left. exists msg, t, k. split; [reflexivity|]. split; [exact Br|exact Mg].
  - apply pair_equal_spec in H as [<- <-]. exists evs1, None. split; [exact H1|].
    right; right. exists e. split; [reflexivity|exact As].
Qed.

Definition is_saving : bool := match kc_save cfg with Some _ => true | None => false end.

Lemma start_proof x p r : start (recorded ch) tb tbb tbk ld cfg (inl (x, [])) = (p, r) ->
  (exists l listing nm evs n, r = inl (KE l) /\
     (forall w, In w l <-> is_well_formed_gtp_word w = true /\ exists line, In line (split_on char_lf listing) /\ w = strip line) /\
     evs = (if is_saving then answered (str "known_command") [str "gomill-savesgf"] (str "true") else []) /\
     here p (answered (str "list_commands") [] listing ++ evs ++ nm) (with_name n new_kgs) /\ naming nm n) \/
  (exists e, r = inr e /\ not_started is_saving (events p) e).
Proof.
  unfold start, set_back_end_subprocess. intros H.
  destruct (set_back_end_controller (recorded ch) tb (new_proxy new_kgs) (new_controller (x, []) be)) as [p1 r1] eqn:S1.
  assert (Kn : forall c, px_back p1 = Some c -> c_known c = []).
  { intros c Pc. unfold set_back_end_controller in S1. cbn [new_proxy px_back] in S1. unfold ControllerModel.list_commands in S1.
    destruct (ControllerModel.do_command (recorded ch) (new_controller (x, []) be) (str "list_commands") []) as [c0 r0] eqn:D.
    destruct (do_command_open ch (new_controller (x, []) be) c0 (str "list_commands") [] r0 eq_refl D) as (evs & _ & _ & _ & (_ & K & _) & _).
    assert (p1 = mkProxy (Some c0) new_kgs) by (destruct r0; exact (eq_sym (f_equal fst S1))).
    subst p1. cbn [px_back] in Pc. assert (c0 = c) by congruence. subst c0. exact K. }
  destruct (set_back_end_proof ch tb (new_proxy new_kgs) p1 (new_controller (x, []) be) r1 eq_refl eq_refl S1)
    as (c & evs1 & Pc & Us & Tr & Cl & Nm & Al & _ & _ & Ex & M).
  assert (H1 : here p1 evs1 new_kgs).
  { split; [exists c; repeat split; assumption|]. split; [unfold events; rewrite Pc, Tr; reflexivity|exact Us]. }
  change (meaning (c_aliases (new_controller (x, []) be)) (str "list_commands")) with (str "list_commands") in Ex.
  change (c_name (new_controller (x, []) be)) with be in M.
  inversion Ex as [[k t|e]|[[[|] t]|[k t|e]]]; subst evs1; cbv iota in M.
  - destruct M as (msg & -> & Mg). right. apply pair_equal_spec in H as [<- <-]. eexists. split; [reflexivity|].
    destruct H1 as (_ & -> & _). apply (ns_broke _ _ msg t); [|exact Mg].
    exists [], (EvSend (str "list_commands") [] (Some (XChan k t))). split; reflexivity.
  - subst r1. right. apply pair_equal_spec in H as [<- <-]. eexists. split; [reflexivity|].
    destruct H1 as (_ & -> & _). apply ns_astray. exists [], (EvSend (str "list_commands") [] (Some (XOther e))). split; reflexivity.
  - destruct M as (msg & -> & Mg). right. apply pair_equal_spec in H as [<- <-]. eexists. split; [reflexivity|].
    destruct H1 as (_ & -> & _). apply (ns_list _ _ msg t); [reflexivity|exact Mg].
  - destruct M as (l & -> & Il). unfold is_saving. destruct (kc_save cfg) as [dir|].
    + destruct (back_end_has_command (recorded ch) p1 (str "gomill-savesgf")) as [p2 r2] eqn:B.
      destruct (here_has _ _ _ _ _ _ H1 (fun c Pc => f_equal (dget (str "gomill-savesgf")) (Kn c Pc)) B) as (evs2 & H2 & Ex2 & M2).
      inversion Ex2 as [[k u|e]|[[f u]|[k u|e]]]; subst evs2.
      * destruct M2 as (msg & -> & Mg). right. apply pair_equal_spec in H as [<- <-]. eexists. split; [reflexivity|].
        destruct H2 as (_ & -> & _). apply (ns_broke _ _ msg u); [|exact Mg]. apply broke_app.
        eexists [], _. split; reflexivity.
      * subst r2. right. apply pair_equal_spec in H as [<- <-]. eexists. split; [reflexivity|].
        destruct H2 as (_ & -> & _). apply ns_astray. apply astray_app. eexists [], _. split; reflexivity.
      * destruct (says_yes [EvSend (str "known_command") [str "gomill-savesgf"] None; EvGet (inl (f, u))]) eqn:Y; subst r2.
        -- assert (f = false /\ u = str "true") as [-> ->].
           { cbn [says_yes] in Y. destruct f; [discriminate|]. destruct (bytes_eqb_spec u (str "true")); [auto|discriminate]. }
           destruct (initialise_name (recorded ch) p2) as [p3 r3] eqn:I.
           destruct (here_naming _ _ _ _ _ H2 I) as (nm & n & H3 & [[-> N]|[(msg & t' & k & -> & Br & Mg)|(e & -> & As)]]).
           ++ apply pair_equal_spec in H as [<- <-]. left. exists l, t, nm. eexists. exists n.
              split; [reflexivity|]. split; [exact Il|]. split; [reflexivity|]. rewrite <- app_assoc in H3. split; [exact H3|exact N].
           ++ right. apply pair_equal_spec in H as [<- <-]. eexists. split; [reflexivity|].
              destruct H3 as (_ & -> & _). apply (ns_broke _ _ msg t'); [apply broke_app; exact Br|exact Mg].
           ++ right. apply pair_equal_spec in H as [<- <-]. eexists. split; [reflexivity|].
              destruct H3 as (_ & -> & _). apply ns_astray. apply astray_app; exact As.
        -- right. apply pair_equal_spec in H as [<- <-]. eexists. split; [reflexivity|].
           destruct H2 as (_ & -> & _). apply (ns_unable _ _ u f t); [reflexivity|reflexivity|].
           intros ->. cbn [says_yes] in Y. intros ->. discriminate Y.
      * destruct M2 as (msg & -> & Mg). right. apply pair_equal_spec in H as [<- <-]. eexists. split; [reflexivity|].
        destruct H2 as (_ & -> & _). apply (ns_broke _ _ msg u); [|exact Mg]. apply broke_app.
        eexists [_], _. split; reflexivity.
      * subst r2. right. apply pair_equal_spec in H as [<- <-]. eexists. split; [reflexivity|].
        destruct H2 as (_ & -> & _). apply ns_astray. apply astray_app. eexists [_], _. split; reflexivity.
    + destruct (initialise_name (recorded ch) p1) as [p3 r3] eqn:I.
      destruct (here_naming _ _ _ _ _ H1 I) as (nm & n & H3 & [[-> N]|[(msg & t' & k & -> & Br & Mg)|(e & -> & As)]]).
      * apply pair_equal_spec in H as [<- <-]. left. exists l, t, nm. eexists. exists n.
        split; [reflexivity|]. split; [exact Il|]. split; [reflexivity|]. split; [exact H3|exact N].
      * right. apply pair_equal_spec in H as [<- <-]. eexists. split; [reflexivity|].
        destruct H3 as (_ & -> & _). apply (ns_broke _ _ msg t'); [apply broke_app; exact Br|exact Mg].
      * right. apply pair_equal_spec in H as [<- <-]. eexists. split; [reflexivity|].
        destruct H3 as (_ & -> & _). apply ns_astray. apply astray_app; exact As.
  - destruct M as (msg & -> & Mg). right. apply pair_equal_spec in H as [<- <-]. eexists. split; [reflexivity|].
    destruct H1 as (_ & -> & _). apply (ns_broke _ _ msg t); [|exact Mg]. eexists [_], _. split; reflexivity.
  - subst r1. right. apply pair_equal_spec in H as [<- <-]. eexists. split; [reflexivity|].
    destruct H1 as (_ & -> & _). apply ns_astray. eexists [_], _. split; reflexivity.
Qed.

End Kgs.
