(** Proofs about the dialogues with engines (C58, C59). *)
From Verif Require Import Base Bytes PyStr Dict SgfPropsModel SgfPropsSpec GtpModel ControllerModel ControllerSpec ControllerProofs
  GameSgfSpec GameSgfProofs EngineModel EngineSpec EngineProofs.
Open Scope Z_scope.

(** ** Descriptions *)

Section Engine.
Variable sanitise : bytes -> bytes.

Lemma new_engine_spec n v d :
  match new_engine sanitise n v d with
  | Ok e =>
      ed_raw_name e = n /\ ed_raw_version e = v /\ ed_name e = sanitised sanitise n /\ ed_version e = sanitised sanitise v /\
      ed_description e = sanitised sanitise d /\
      match ed_version e, ed_clean e with
      | None, None => True
      | Some u, Some c => clean_version (ed_name e) u c
      | _, _ => False
      end
  | Err x => x = IndexError /\ exists u, sanitised sanitise v = Some u /\ unreadable (sanitised sanitise n) u
  end.
Proof.
  unfold new_engine. destruct (sanitised sanitise v) as [u|] eqn:V; [|cbn; auto 8].
  destruct (fix_version_spec (sanitised sanitise n) u) as (F1 & F2).
  destruct (fix_version (sanitised sanitise n) u) as [c|x]; cbn.
  - specialize (F1 c). repeat (split; [reflexivity|]). apply F1. reflexivity.
  - specialize (F2 x). destruct (proj1 F2 eq_refl) as (-> & U). split; [reflexivity|]. exists u. auto.
Qed.

Lemma describe_utf8 n v d e : (forall s, is_utf8 (sanitise s)) -> new_engine sanitise n v d = Ok e ->
  (forall s, short_description e = Some s -> is_utf8 s) /\ (forall s, long_description e = Some s -> is_utf8 s) /\
  (forall s, ed_name e = Some s -> is_utf8 s) /\ (forall s, ed_clean e = Some s -> is_utf8 s).
Proof.
  intros U E. pose proof (new_engine_spec n v d) as S. rewrite E in S. destruct S as (_ & _ & En & Ev & Ed & C).
  assert (forall raw s, sanitised sanitise raw = Some s -> is_utf8 s) as UR.
  { intros [[|c r]|] s H; cbn in H; try discriminate. injection H as <-. apply U. }
  assert (forall s, ed_name e = Some s -> is_utf8 s) as UN by (intros s H; rewrite En in H; eauto).
  assert (forall s, ed_clean e = Some s -> is_utf8 s) as UC.
  { intros s H. rewrite H in C. destruct (ed_version e) as [u|] eqn:V; [|contradiction]. eapply clean_utf8; [exact C|exact UN|].
    apply (UR v). congruence. }
  split; [|split; [|split; assumption]].
  - intros s H. unfold short_description in H. destruct (ed_name e) as [n0|]; [|discriminate]. specialize (UN n0 eq_refl).
    destruct (ed_clean e) as [c|]; [|congruence]. specialize (UC c eq_refl). destruct (_ <? _); [congruence|].
    assert (s = n0 ++ str ":" ++ c) as -> by congruence. apply is_utf8_app; [exact UN|]. apply is_utf8_app; [apply ascii_utf8; reflexivity|exact UC].
  - intros s H. unfold long_description in H. destruct (ed_description e) as [d0|] eqn:D.
    + assert (s = d0) as -> by congruence. apply (UR d). congruence.
    + destruct (ed_name e) as [n0|], (ed_clean e) as [c|]; try discriminate.
      * specialize (UN n0 eq_refl). specialize (UC c eq_refl). assert (s = n0 ++ str ":" ++ c) as -> by congruence.
        apply is_utf8_app; [exact UN|]. apply is_utf8_app; [apply ascii_utf8; reflexivity|exact UC].
      * specialize (UN n0 eq_refl). congruence.
      * specialize (UC c eq_refl). assert (s = str "version " ++ c) as -> by congruence. apply is_utf8_app; [apply ascii_utf8; reflexivity|exact UC].
Qed.

Context {X : Type}.
Variable ch : channel X.

Lemma try_spec c cmd c' x : try_command ch c cmd = (c', x) -> exists r, perform ch (Do cmd []) c = (c', r) /\
  match x with
  | CRet o => ~ broken r /\ o = said r /\ r <> CRet (VBool false)
  | CBad _ _ => False
  | CChan k m => r = CChan k m
  | CExn e => r = CExn e
  end.
Proof.
  unfold try_command. cbn [perform]. unfold lift. destruct (do_command ch c cmd []) as [c1 [t|m g|k m|e]]; intros H; injection H as <- <-; eexists; (split; [reflexivity|]);
    cbn; auto; repeat split; auto; discriminate.
Qed.

Lemma not_enough r : ~ broken r -> r <> CRet (VBool false) -> ~ enough r.
Proof. intros A B [C|C]; auto. Qed.

Lemma known_bad run (R : forall c cmd args c' m g, run c cmd args = (c', CBad m g) -> True) c cmd c' m g :
  known_command_with (X := X) run c cmd <> (c', CBad m g).
Proof.
  unfold known_command_with. destruct (dget cmd (c_known c)); [discriminate|]. destruct (run _ _ _) as [c1 [t| | |]]; discriminate.
Qed.

Lemma from_controller_spec c c' r : from_controller sanitise ch c = (c', r) ->
  exists rs, until ch enough c describing c' rs /\ interview (fun n v d => of_res (new_engine sanitise n v d)) rs r.
Proof.
  unfold from_controller, describing. destruct (try_command ch c (str "name")) as [c1 x1] eqn:T1. apply try_spec in T1 as (r1 & P1 & S1).
  destruct x1 as [n| |k m|e]; [|contradiction| |].
  2:{ intros H; injection H as <- <-. subst r1. exists [CChan k m]. split; [apply un_stop; [exact P1|left; exact I]|]. exact (iv_channel _ [] k m). }
  2:{ intros H; injection H as <- <-. subst r1. exists [CExn e]. split; [apply un_stop; [exact P1|left; exact I]|]. exact (iv_error _ [] e). }
  destruct S1 as (B1 & -> & F1). destruct (try_command ch c1 (str "version")) as [c2 x2] eqn:T2. apply try_spec in T2 as (r2 & P2 & S2).
  destruct x2 as [v| |k m|e]; [|contradiction| |].
  2:{ intros H; injection H as <- <-. subst r2. exists [r1; CChan k m]. split; [|exact (iv_channel _ [r1] k m)].
      eapply un_go; [exact P1|apply not_enough; assumption|]. apply un_stop; [exact P2|left; exact I]. }
  2:{ intros H; injection H as <- <-. subst r2. exists [r1; CExn e]. split; [|exact (iv_error _ [r1] e)].
      eapply un_go; [exact P1|apply not_enough; assumption|]. apply un_stop; [exact P2|left; exact I]. }
  destruct S2 as (B2 & -> & F2).
  assert (forall os c3 r3 rs, until ch enough c2 os c3 (r3 :: rs) ->
    until ch enough c (Do (str "name") [] :: Do (str "version") [] :: os) c3 (r1 :: r2 :: r3 :: rs)) as Pre.
  { intros os c3 r3 rs U. eapply un_go; [exact P1|apply not_enough; assumption|]. eapply un_go; [exact P2|apply not_enough; assumption|]. exact U. }
  assert (perform ch (Known (str "gomill-describe_engine")) c2 = lift VBool (known_command ch c2 (str "gomill-describe_engine"))) as P3 by reflexivity.
  destruct (known_command ch c2 (str "gomill-describe_engine")) as [c3 x3] eqn:K3. destruct x3 as [b|m g|k m|e].
  - unfold lift in P3. cbn [fst snd] in P3. destruct b.
    + destruct (try_command ch c3 (str "gomill-describe_engine")) as [c4 x4] eqn:T4. apply try_spec in T4 as (r4 & P4 & S4).
      assert (~ enough (CRet (VBool true))) as NE by (intros [[]|E]; discriminate E).
      destruct x4 as [d| |k m|e]; [|contradiction| |]; intros H; injection H as <- <-.
      * destruct S4 as (B4 & -> & F4). exists [r1; r2; CRet (VBool true); r4]. split; [|apply iv_full; assumption].
        apply Pre. eapply un_go; [exact P3|exact NE|]. eapply un_go; [exact P4|apply not_enough; assumption|]. apply un_done.
      * subst r4. exists [r1; r2; CRet (VBool true); CChan k m]. split; [|exact (iv_channel _ [r1; r2; CRet (VBool true)] k m)].
        apply Pre. eapply un_go; [exact P3|exact NE|]. apply un_stop; [exact P4|left; exact I].
      * subst r4. exists [r1; r2; CRet (VBool true); CExn e]. split; [|exact (iv_error _ [r1; r2; CRet (VBool true)] e)].
        apply Pre. eapply un_go; [exact P3|exact NE|]. apply un_stop; [exact P4|left; exact I].
    + intros H; injection H as <- <-. exists [r1; r2; CRet (VBool false)]. split; [|apply iv_plain; assumption].
      apply Pre. apply un_stop; [exact P3|right; reflexivity].
  - exfalso. revert K3. apply known_bad. auto.
  - intros H; injection H as <- <-. exists [r1; r2; CChan k m]. split; [|exact (iv_channel _ [r1; r2] k m)].
    apply Pre. apply un_stop; [exact P3|left; exact I].
  - intros H; injection H as <- <-. exists [r1; r2; CExn e]. split; [|exact (iv_error _ [r1; r2] e)].
    apply Pre. apply un_stop; [exact P3|left; exact I].
Qed.

(** ** Checks *)

Definition goes {A} (c : controller X) (os : list call) (x : controller X * cres A) : Prop :=
  exists rs, until ch wrong c os (fst x) rs /\ verdict rs (snd x).

Lemma verdict_cons {A} r rs (x : cres A) : ~ wrong r -> verdict rs x -> verdict (r :: rs) x.
Proof.
  intros N V. destruct V as [rs a F|rs m g F|rs k m F|rs e F].
  - apply vd_fine. constructor; assumption.
  - exact (vd_bad (r :: rs) m g (Forall_cons (P := fun r => ~ wrong r) r N F)).
  - exact (vd_chan (r :: rs) k m (Forall_cons (P := fun r => ~ wrong r) r N F)).
  - exact (vd_exn (r :: rs) e (Forall_cons (P := fun r => ~ wrong r) r N F)).
Qed.

Lemma goes_one {A} c o (x : controller X * cres A) (f : A -> answer) : perform ch o c = lift f x -> goes c [o] x.
Proof.
  intros P. destruct x as [c' [a|m g|k m|e]]; unfold lift in P; cbn [fst snd] in P.
  - exists [CRet (f a)]. split; [eapply un_go; [exact P|intros []|apply un_done]|]. apply vd_fine. constructor; [intros []|constructor].
  - exists [CBad m g]. split; [apply un_stop; [exact P|exact I]|]. exact (vd_bad [] m g (Forall_nil _)).
  - exists [CChan k m]. split; [apply un_stop; [exact P|exact I]|]. exact (vd_chan [] k m (Forall_nil _)).
  - exists [CExn e]. split; [apply un_stop; [exact P|exact I]|]. exact (vd_exn [] e (Forall_nil _)).
Qed.

Lemma until_app c os c1 rs os' c' rs' : until ch wrong c os c1 rs -> Forall (fun r => ~ wrong r) rs ->
  until ch wrong c1 os' c' rs' -> until ch wrong c (os ++ os') c' (rs ++ rs').
Proof.
  induction 1 as [c|c o os c1 r P S|c o os c2 r c1 rs P S U IH]; intros F V; cbn [app].
  - exact V.
  - inversion F. contradiction.
  - inversion F. eapply un_go; eauto.
Qed.
Lemma until_more c os c' rs os' : until ch wrong c os c' rs -> ~ Forall (fun r => ~ wrong r) rs -> until ch wrong c (os ++ os') c' rs.
Proof.
  induction 1 as [c|c o os c1 r P S|c o os c2 r c1 rs P S U IH]; intros F; cbn [app].
  - elim F. constructor.
  - apply un_stop; assumption.
  - eapply un_go; [exact P|exact S|]. apply IH. intros G. apply F. constructor; assumption.
Qed.
Lemma not_all rs r : wrong r -> ~ Forall (fun r => ~ wrong r) (rs ++ [r]).
Proof. intros W F. apply Forall_app in F as (_ & F). inversion F. contradiction. Qed.

Lemma goes_then {A B} c os (x : controller X * cres A) os' (f : controller X -> controller X * cres B) :
  goes c os x -> (forall c1 a, x = (c1, CRet a) -> goes c1 os' (f c1)) -> goes c (os ++ os') (and_then x f).
Proof.
  intros (rs & U & V) G. destruct x as [c1 x]. cbn [fst snd] in U, V. destruct V as [rs a F|rs m g F|rs k m F|rs e F]; cbn [and_then].
  - destruct (G c1 a eq_refl) as (rs' & U' & V'). exists (rs ++ rs'). split; [eapply until_app; eassumption|].
    clear U U'. induction F as [|r rs N F IH]; [exact V'|]. cbn [app]. apply verdict_cons; assumption.
  - eexists. split; [apply until_more; [exact U|apply not_all; exact I]|]. constructor. exact F.
  - eexists. split; [apply until_more; [exact U|apply not_all; exact I]|]. constructor. exact F.
  - eexists. split; [apply until_more; [exact U|apply not_all; exact I]|]. constructor. exact F.
Qed.

Lemma goes_startup l : forall c, goes c (map (fun x => Do (fst x) (snd x)) l) (startup ch c l).
Proof.
  induction l as [|[cmd args] l IH]; intros c.
  - exists []. split; [apply un_done|apply vd_fine; constructor].
  - cbn [map fst snd startup]. change (Do cmd args :: map (fun x => Do (fst x) (snd x)) l) with ([Do cmd args] ++ map (fun x => Do (fst x) (snd x)) l).
    replace (match do_command ch c cmd args with
             | (c', CRet _) => startup ch c' l | (c', CBad m g) => (c', CBad m g)
             | (c', CChan k m) => (c', CChan k m) | (c', CExn e) => (c', CExn e) end)
      with (and_then (do_command ch c cmd args) (fun c' => startup ch c' l)) by reflexivity.
    apply goes_then; [|intros; apply IH]. eapply goes_one. reflexivity.
Qed.

Lemma check_engine_spec al cmds st kt c : goes c (checking al cmds st kt) (check_engine ch al cmds st kt c).
Proof.
  unfold checking, check_engine.
  assert (forall os (x : controller X * cres unit), goes (set_gtp_aliases al c) os x -> goes c ([Set_aliases al] ++ os) x) as S.
  { intros os x (rs & U & V). exists (CRet VNone :: rs). split; [|apply verdict_cons; [intros []|exact V]].
    cbn [app]. eapply un_go; [reflexivity|intros []|exact U]. }
  change ([Set_aliases al; Check_version] ++ map (fun x => Do (fst x) (snd x)) cmds ++
    [Do (str "boardsize") [st]; Do (str "clear_board") []; Do (str "komi") [kt]; Safe_close])
    with ([Set_aliases al] ++ ([Check_version] ++ (map (fun x => Do (fst x) (snd x)) cmds ++
    ([Do (str "boardsize") [st]] ++ ([Do (str "clear_board") []] ++ ([Do (str "komi") [kt]] ++ [Safe_close])))))).
  apply S. apply goes_then; [eapply goes_one; reflexivity|]. intros c1 _ _. apply goes_then; [apply goes_startup|].
  intros c2 _ _. apply goes_then; [eapply goes_one; reflexivity|].
  intros c3 _ _. apply goes_then; [eapply goes_one; reflexivity|].
  intros c4 _ _. apply goes_then; [eapply goes_one; reflexivity|]. intros c5 _ _. eapply goes_one. reflexivity.
Qed.

Lemma until_fine c os c' rs : until ch wrong c os c' rs -> Forall (fun r => ~ wrong r) rs -> List.length rs = List.length os.
Proof.
  induction 1 as [c|c o os c1 r P S|c o os c2 r c1 rs P S U IH]; intros F; [reflexivity|inversion F; contradiction|].
  inversion F. cbn. f_equal. auto.
Qed.
End Engine.

(** ** What is sent *)

Section Sent.
Context {X : Type}.
Variable ch : channel X.
Notation ctl := (controller (X * list cevent)).

Lemma sent_app a b : sent (a ++ b) = sent a ++ sent b.
Proof. induction a as [|[c args r|r|r] a IH]; cbn; [reflexivity|f_equal; exact IH|exact IH|exact IH]. Qed.

Lemma exchange_sent u args evs : exchange u args evs -> sent evs = [(u, args)].
Proof. destruct 1; reflexivity. Qed.

(** The commands that are a dialogue's plain calls. *)
Definition plain (o : call) (x : bytes * list bytes) : Prop :=
  match o with Do c a => x = (c, a) | Check_version => x = (str "protocol_version", []) | _ => False end.

Record progress (c c' : ctl) (evs : list cevent) : Prop := mkProgress {
  pg_trace : trace c' = trace c ++ evs;
  pg_close : existsb is_close evs = false;
  pg_open : c_closed c' = false;
  pg_aliases : c_aliases c' = c_aliases c
}.

Lemma progress_do (c c' : ctl) cmd args r : c_closed c = false -> do_command (recorded ch) c cmd args = (c', r) ->
  exists evs, progress c c' evs /\ sent evs = [(meaning (c_aliases c) cmd, args)] /\
    (match r with CChan _ _ | CExn _ => True | _ => c_bad c' = c_bad c end).
Proof.
  intros Cl D. destruct (do_command_open ch c c' cmd args r Cl D) as (evs & T & Ex & O & S & Cl' & Bd).
  exists evs. split; [|split; [apply exchange_sent; exact Ex|]].
  - constructor; [exact T|eapply exchange_no_close; exact Ex|exact Cl'|]. exact (proj1 (proj2 (proj2 S))).
  - destruct (outcome_cases _ _ _ _ _ Ex O) as [(k & text & msg & _ & _ & _ & -> & _)|[(e & _ & _ & _ & -> & _)|
      [(text & Ee & -> & _)|(text & msg & Ee & -> & _)]]]; auto; rewrite Bd, Ee; apply orb_false_r.
Qed.

Lemma progress_plain (c c' : ctl) o x r : c_closed c = false -> plain o x -> perform (recorded ch) o c = (c', r) ->
  exists evs, progress c c' evs /\ sent evs = [aliased (c_aliases c) x] /\ (~ wrong r -> c_bad c' = c_bad c).
Proof.
  intros Cl P H. destruct o as [cmd args| | | | | | | |]; try contradiction; cbn in P; subst x.
  - cbn [perform] in H. destruct (do_command (recorded ch) c cmd args) as [c1 r1] eqn:D. unfold lift in H. cbn [fst snd] in H. injection H as <- <-.
    destruct (progress_do c c1 cmd args r1 Cl D) as (evs & P & S & B). exists evs. split; [exact P|]. split; [exact S|].
    intros W. destruct r1; cbn in W; try tauto.
  - cbn [perform] in H. unfold check_protocol_version in H. destruct (do_command (recorded ch) c (str "protocol_version") []) as [c1 r1] eqn:D.
    destruct (progress_do c c1 _ _ r1 Cl D) as (evs & P & S & B). exists evs. unfold lift in H.
    destruct r1 as [v|m g|k m|e]; [destruct (is_version_2 v)| | |]; cbn [fst snd] in H; injection H as <- <-; (split; [exact P|]); (split; [exact S|]); cbn; tauto.
Qed.

Lemma progress_trans (c c1 c2 : ctl) a b : progress c c1 a -> progress c1 c2 b -> progress c c2 (a ++ b).
Proof.
  intros [T1 N1 O1 A1] [T2 N2 O2 A2]. constructor; [rewrite T2, T1, app_assoc; reflexivity| |exact O2|congruence].
  rewrite existsb_app, N1, N2. reflexivity.
Qed.

Lemma until_sent (c : ctl) os c' rs : until (recorded ch) wrong c os c' rs -> forall xs, c_closed c = false -> Forall2 plain os xs ->
  exists evs, progress c c' evs /\ prefix_of (sent evs) (map (aliased (c_aliases c)) xs) /\
    (Forall (fun r => ~ wrong r) rs -> sent evs = map (aliased (c_aliases c)) xs /\ c_bad c' = c_bad c).
Proof.
  induction 1 as [c|c o os c1 r P S|c o os c1 r c' rs P S U IH]; intros xs Cl F.
  - inversion F. subst. exists []. split; [constructor; [symmetry; apply app_nil_r|reflexivity|exact Cl|reflexivity]|].
    split; [exists []; reflexivity|]. auto.
  - inversion F as [|o' x os' xs' Px F']. subst. destruct (progress_plain c c1 o x r Cl Px P) as (evs & Pg & Se & B).
    exists evs. split; [exact Pg|]. split; [exists (map (aliased (c_aliases c)) xs'); rewrite Se; reflexivity|].
    intros G. inversion G. contradiction.
  - inversion F as [|o' x os' xs' Px F']. subst. destruct (progress_plain c c1 o x r Cl Px P) as (evs & Pg & Se & B).
    destruct (IH xs' (pg_open _ _ _ Pg) F') as (evs' & Pg' & (rest & Er) & G). rewrite (pg_aliases _ _ _ Pg) in *.
    exists (evs ++ evs'). split; [eapply progress_trans; eassumption|]. rewrite sent_app, Se. cbn [app map].
    split; [exists rest; cbn; rewrite <- Er; reflexivity|].
    intros GF. inversion GF. destruct G as (G1 & G2); [assumption|]. split; [rewrite G1; reflexivity|]. rewrite G2. apply B. exact S.
Qed.

Lemma until_split {Y} (k : channel Y) (c : controller Y) os1 os2 c' rs : until k wrong c (os1 ++ os2) c' rs ->
  (until k wrong c os1 c' rs /\ ~ Forall (fun r => ~ wrong r) rs) \/
  exists c1 rs1 rs2, rs = rs1 ++ rs2 /\ until k wrong c os1 c1 rs1 /\ Forall (fun r => ~ wrong r) rs1 /\ until k wrong c1 os2 c' rs2.
Proof.
  revert c rs. induction os1 as [|o os1 IH]; intros c rs U; cbn [app] in U.
  - right. exists c, [], rs. split; [reflexivity|]. split; [constructor|]. split; [constructor|exact U].
  - inversion U as [|o' os' c1 r P S E1|o' os' c1 r c2 rs' P S U' E1]; subst.
    + left. split; [apply un_stop; assumption|]. intros F. inversion F. contradiction.
    + destruct (IH _ _ U') as [(U1 & N)|(c2 & rs1 & rs2 & -> & U1 & F & U2)].
      * left. split; [eapply un_go; eassumption|]. intros F. inversion F. contradiction.
      * right. exists c2, (r :: rs1), rs2. split; [reflexivity|]. split; [eapply un_go; eassumption|]. split; [constructor; assumption|exact U2].
Qed.

Lemma checking_sent al cmds st kt x name c rs :
  until (recorded ch) wrong (new_controller (x, []) name) (checking al cmds st kt) c rs -> existsb unexpected (trace c) = false ->
  prefix_of (sent (trace c)) (map (aliased al) (check_commands cmds st kt)) /\
  ((Forall (fun r => ~ wrong r) rs /\ sent (trace c) = map (aliased al) (check_commands cmds st kt) /\
    c_closed c = true /\ exists t e, trace c = t ++ [EvClose e] /\ existsb is_close t = false) \/
   (~ Forall (fun r => ~ wrong r) rs /\ c_closed c = false /\ existsb is_close (trace c) = false /\ retrieve_error_messages c = [])).
Proof.
  intros U Un. unfold checking in U.
  set (mid := map (fun x => Do (fst x) (snd x)) cmds) in U.
  change ([Set_aliases al; Check_version] ++ mid ++ [Do (str "boardsize") [st]; Do (str "clear_board") []; Do (str "komi") [kt]; Safe_close])
    with (Set_aliases al :: ((Check_version :: mid) ++ [Do (str "boardsize") [st]; Do (str "clear_board") []; Do (str "komi") [kt]; Safe_close])) in U.
  inversion U as [|o' os' c1 r P S E1|o' os' c1 r c2 rs' P S U' E1]; subst; cbn [perform] in P; injection P as <- <-; [contradiction|].
  set (c0 := set_gtp_aliases al (new_controller (x, []) name)) in U'.
  set (plains := (Check_version :: mid) ++ [Do (str "boardsize") [st]; Do (str "clear_board") []; Do (str "komi") [kt]]).
  set (xs := ((str "protocol_version", []) :: cmds) ++ [(str "boardsize", [st]); (str "clear_board", []); (str "komi", [kt])]).
  assert (until (recorded ch) wrong c0 (plains ++ [Safe_close]) c rs') as U0 by (unfold plains; rewrite <- app_assoc; exact U').
  clear U'. rename U0 into U'.
  assert (check_commands cmds st kt = xs ++ [(str "quit", [])]) as Ec.
  { unfold check_commands, xs. cbn [app]. rewrite <- app_assoc. reflexivity. }
  assert (Forall2 plain plains xs) as Fp.
  { unfold plains, xs. apply Forall2_app.
    - constructor; [reflexivity|]. unfold mid. clear. induction cmds as [|[a b] l IH]; constructor; [reflexivity|exact IH].
    - repeat (constructor; [reflexivity|]). constructor. }
  rewrite Ec, map_app.
  assert (exists evs : list cevent, c_errors c0 = [] /\ trace c0 = []) as (_ & Er0 & T0) by (exists []; split; reflexivity).
  assert (forall os c' rs', until (recorded ch) wrong c0 os c' rs' -> (forall o, In o os -> is_safe o = false) -> c_errors c' = []) as NoErr.
  { clear -Er0. intros os c' rs' U. revert Er0. induction U as [c|c o os c1 r P S|c o os c1 r c' rs P S U IH]; intros E H; [exact E| |].
    - destruct (effect_any ch o c c1 r P) as (evs & Ef). destruct (ef_errors _ _ _ _ Ef) as (new & En & F2). rewrite E in En.
      specialize (H o (or_introl eq_refl)). destruct o; try discriminate H; inversion F2; subst; exact En.
    - apply IH; [|intros o' I; apply H; right; exact I].
      destruct (effect_any ch o c c1 r P) as (evs & Ef). destruct (ef_errors _ _ _ _ Ef) as (new & En & F2). rewrite E in En.
      specialize (H o (or_introl eq_refl)). destruct o; try discriminate H; inversion F2; subst; exact En. }
  assert (forall o, In o plains -> is_safe o = false) as NS.
  { intros o I. destruct (in_split _ _ I) as (l1 & l2 & E). rewrite E in Fp. apply Forall2_app_inv_l in Fp as (y1 & y2 & _ & F & _).
    inversion F as [|o' y l ys Py _ E1 E2]. destruct o; try contradiction; reflexivity. }
  destruct (until_split _ _ _ _ _ _ U') as [(U1 & N)|(c2 & rs1 & rs2 & -> & U1 & F1 & U2)].
  - destruct (until_sent _ _ _ _ U1 xs eq_refl Fp) as (evs & [T Nc O A] & (rest & Er) & _).
    rewrite T0 in T. cbn [app] in T. split; [exists (rest ++ [aliased al (str "quit", [])]); cbn [map]; rewrite app_assoc, T; f_equal; exact Er|].
    right. split; [intros G; apply N; inversion G; assumption|]. split; [exact O|]. split; [rewrite T; exact Nc|]. exact (NoErr _ _ _ U1 NS).
  - destruct (until_sent _ _ _ _ U1 xs eq_refl Fp) as (evs & [T Nc O A] & _ & Full). destruct (Full F1) as (Se & Bd).
    rewrite T0 in T. cbn [app] in T. change (c_aliases c0) with al in *. change (c_bad c0) with false in Bd.
    assert (exists r, perform (recorded ch) Safe_close c2 = (c, r) /\ rs2 = [r]) as (r & P2 & ->).
    { inversion U2 as [|o' os' c3 r' P' S' E1|o' os' c3 r' c4 rs' P' S' U'' E1]; subst; [exists r'; auto|].
      inversion U''; subst. exists r'. auto. }
    cbn [perform] in P2. destruct (safe_close (recorded ch) c2) as [c3 r3] eqn:SC. unfold lift in P2. cbn [fst snd] in P2. injection P2 as E2 P2. subst c3.
    destruct (effect_safe_close ch c2 c r3 SC) as (ev2 & Ef & _ & C2). pose proof (ef_trace _ _ _ _ Ef) as T2.
    rewrite T2, existsb_app, orb_false_iff in Un. destruct Un as (_ & Un2). destruct (C2 O Un2) as (-> & Cl & q & e & -> & _ & Q).
    specialize (Q Bd). rewrite A in Q.
    assert (sent (trace c) = map (aliased al) xs ++ [aliased al (str "quit", [])]) as SS.
    { rewrite T2, T, !sent_app, Se, (exchange_sent _ _ _ Q). reflexivity. }
    split; [exists []; rewrite app_nil_r; exact (eq_sym SS)|]. left. subst r. split.
    + constructor; [intros []|]. apply Forall_app. split; [exact F1|]. constructor; [intros []|constructor].
    + split; [exact SS|]. split; [exact Cl|]. exists (trace c2 ++ q), e. split; [rewrite T2, app_assoc; reflexivity|].
      rewrite existsb_app, T, Nc. exact (exchange_no_close _ _ _ Q).
Qed.
End Sent.
