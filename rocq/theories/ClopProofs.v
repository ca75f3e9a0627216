(** Proofs about the connection script for CLOP: see ClopProps.v. *)
From Coq Require Import QArith.
From Verif Require Import Base Bytes PyStr GameplayModel TournModel SettingsModel RingFilesModel ClopModel ClopSpec.
Open Scope Z_scope.

(** ** The command line *)
Lemma parse_args_spec argv done l : parse_args argv done = Args l <->
  (Forall plain argv /\ l = rev done ++ argv) \/
  (exists pre post, argv = pre ++ str "--" :: post /\ Forall plain pre /\ l = rev done ++ pre ++ post).
Proof.
  revert done. induction argv as [|a argv IH]; intros done.
  - cbn [parse_args]. rewrite app_nil_r. split.
    + intros H. left. split; [constructor|congruence].
    + intros [[_ ->]|(pre & post & E & _)]; [reflexivity|destruct pre; discriminate].
  - assert (STEP : plain a -> parse_args (a :: argv) done = parse_args argv (a :: done)).
    { intros PA. cbn [parse_args]. destruct a as [|c1 [|c2 more]]; [reflexivity|reflexivity|].
      destruct (ceqb_spec c1 char_dash) as [->|]; [exfalso; exact (PA c2 more eq_refl)|reflexivity]. }
    assert (DEC : plain a \/ exists c r, a = "-"%char :: c :: r).
    { destruct a as [|c1 [|c2 more]]; [left; discriminate|left; intros x y X; discriminate|].
      destruct (ceqb_spec c1 "-"%char) as [->|N]; [right; eauto|left; intros x y X; congruence]. }
    destruct DEC as [PA|(c & r & ->)].
    + rewrite (STEP PA), IH. cbn [rev]. rewrite <- !app_assoc. split.
      * intros [[F ->]|(pre & post & -> & F & ->)].
        -- left. split; [constructor; assumption|reflexivity].
        -- right. exists (a :: pre), post. split; [reflexivity|]. split; [constructor; assumption|]. rewrite <- app_assoc. reflexivity.
      * intros [[F ->]|(pre & post & E & F & ->)].
        -- left. split; [inversion F; assumption|reflexivity].
        -- destruct pre as [|x pre]; cbn [app] in E; [injection E as E1 _; exfalso; exact (PA _ _ E1)|].
           injection E as <- ->. right. exists pre, post. split; [reflexivity|]. split; [inversion F; assumption|]. rewrite <- app_assoc. reflexivity.
    + cbn [parse_args]. change (ceqb "-"%char char_dash) with true. cbv iota. destruct (ceqb_spec c char_dash) as [->|N].
      * destruct r as [|c2 r].
        -- split.
           ++ intros H. right. exists [], argv. split; [reflexivity|]. split; [constructor|]. cbn [app]. congruence.
           ++ intros [[FP _]|(pre & post & E & FP & ->)].
              ** inversion FP as [|x y PA _]. exfalso. exact (PA _ _ eq_refl).
              ** destruct pre as [|x pre]; cbn [app] in E; [injection E as ->; reflexivity|]. injection E as <- _. inversion FP as [|x y PA _]. exfalso. exact (PA _ _ eq_refl).
        -- split.
           ++ unfold long_opt. destruct (existsb _ _); [discriminate|]. destruct (begins _ _); discriminate.
           ++ intros [[FP _]|(pre & post & E & FP & ->)].
              ** inversion FP as [|x y PA _]. exfalso. exact (PA _ _ eq_refl).
              ** destruct pre as [|x pre]; cbn [app] in E; [discriminate|]. injection E as <- _. inversion FP as [|x y PA _]. exfalso. exact (PA _ _ eq_refl).
      * split.
        -- unfold short_opt. destruct (ceqb _ _); discriminate.
        -- intros [[FP _]|(pre & post & E & FP & ->)].
           ++ inversion FP as [|x y PA _]. exfalso. exact (PA _ _ eq_refl).
           ++ destruct pre as [|x pre]; cbn [app] in E; [injection E as E1 _ _; destruct (N E1)|]. injection E as <- _. inversion FP as [|x y PA _]. exfalso. exact (PA _ _ eq_refl).
Qed.

Lemma parse_args_bad pre d r post done : Forall plain pre -> d <> "h"%char -> d <> "-"%char ->
  parse_args (pre ++ ("-"%char :: d :: r) :: post) done = BadOption.
Proof.
  intros FP N1 N2. revert done. induction FP as [|a pre PA FP IH]; intros done; cbn [app parse_args].
  - change (ceqb "-"%char char_dash) with true. cbv iota. destruct (ceqb_spec d char_dash) as [X|_]; [destruct (N2 X)|].
    unfold short_opt. destruct (ceqb_spec d "h"%char) as [X|_]; [destruct (N1 X)|reflexivity].
  - destruct a as [|c1 [|c2 more]]; [apply IH|apply IH|]. destruct (ceqb_spec c1 char_dash) as [->|]; [exfalso; exact (PA c2 more eq_refl)|apply IH].
Qed.

(** ** The parameters in the control file *)
Lemma not_integral_spec x : not_integral x = Some false <-> integral x.
Proof.
  unfold integral. destruct x as [q| |]; cbn [not_integral].
  - split.
    + intros H. assert (E : Qnum q mod Z.pos (Qden q) = 0) by (destruct (Z.eqb_spec (Qnum q mod Z.pos (Qden q)) 0); [assumption|discriminate]).
      exists q, (Qnum q / Z.pos (Qden q)). split; [reflexivity|]. unfold Qeq, inject_Z. cbn [Qnum Qden].
      rewrite Z.mul_1_r, Z.mul_comm. apply Z.div_exact; [discriminate|exact E].
    + intros (q' & z & E & QE). injection E as <-. unfold Qeq, inject_Z in QE. cbn [Qnum Qden] in QE. rewrite Z.mul_1_r in QE. rewrite QE, Z_mod_mult. reflexivity.
  - split; [discriminate|intros (q & z & E & _); discriminate].
  - split; [discriminate|intros (q & z & E & _); discriminate].
Qed.

Lemma begins_spec s p : begins s p = true <-> exists r, p = s ++ r.
Proof.
  revert p. induction s as [|a s IH]; intros p; cbn [begins].
  - split; [intros _; exists p; reflexivity|reflexivity].
  - destruct p as [|b p]; [split; [discriminate|intros (r & E); discriminate]|]. rewrite andb_true_iff, IH. destruct (ceqb_spec a b) as [->|N].
    + split; [intros (_ & r & ->); exists r; reflexivity|intros (r & E); injection E as ->; split; [reflexivity|eauto]].
    + split; [intros [X _]; discriminate|intros (r & E); injection E as E _; congruence].
Qed.
Lemma contains_spec w s : contains w s = true <-> exists a b, s = a ++ w ++ b.
Proof.
  induction s as [|c s IH]; cbn [contains]; rewrite orb_true_iff, begins_spec.
  - split; [intros [(r & E)|X]; [exists [], r; exact E|discriminate]|].
    intros (a & b & E). left. destruct a; [exists b; exact E|discriminate].
  - rewrite IH. split.
    + intros [(r & E)|(a & b & ->)]; [exists [], r; exact E|exists (c :: a), b; reflexivity].
    + intros (a & b & E). destruct a as [|x a]; [left; exists b; exact E|]. injection E as <- ->. right. eauto.
Qed.

Definition spec_of (c : pconfig) : pspec :=
  mkSpec (pc_code c) (pc_type c) (contains (str "Integer") (pc_type c)) (pc_min c) (pc_max c).
Definition bounds_ok (c : pconfig) : Prop :=
  (exists a b, pc_type c = a ++ str "Integer" ++ b) -> integral (pc_min c) /\ integral (pc_max c).
Lemma from_config_spec c s : parameter_spec_from_config c = Some s <-> bounds_ok c /\ s = spec_of c.
Proof.
  unfold parameter_spec_from_config, bounds_ok, spec_of. pose proof (contains_spec (str "Integer") (pc_type c)) as C.
  destruct (contains (str "Integer") (pc_type c)).
  - pose proof (not_integral_spec (pc_min c)) as A. pose proof (not_integral_spec (pc_max c)) as B.
    split.
    + intros H. destruct (not_integral (pc_min c)) as [[|]|]; try discriminate. destruct (not_integral (pc_max c)) as [[|]|]; try discriminate.
      split; [intros _; split; [apply A|apply B]; reflexivity|congruence].
    + intros [H ->]. destruct (H (proj1 C eq_refl)) as [H1 H2]. rewrite (proj2 A H1), (proj2 B H2). reflexivity.
  - split; [intros H; split; [intros X; apply C in X; discriminate|congruence]|intros [_ ->]; reflexivity].
Qed.

Lemma existsb_in s l : existsb (bytes_eqb s) l = true <-> In s l.
Proof.
  rewrite existsb_exists. split; [intros (x & I & E); destruct (bytes_eqb_spec s x) as [->|]; [exact I|discriminate]|].
  intros I. exists s. split; [exact I|apply bytes_eqb_refl].
Qed.

Lemma spec_loop_spec l seen specs : spec_loop l seen = Some specs <->
  exists cs, l = map Some cs /\ Forall bounds_ok cs /\ NoDup (map pc_code cs) /\ (forall c, In c cs -> ~ In (pc_code c) seen) /\ specs = map spec_of cs.
Proof.
  revert seen specs. induction l as [|[c|] l IH]; intros seen specs; cbn [spec_loop].
  - split.
    + intros H. exists []. split; [reflexivity|]. split; [constructor|]. split; [constructor|]. split; [intros c []|cbn [map]; congruence].
    + intros (cs & E & _ & _ & _ & ->). destruct cs; [reflexivity|discriminate].
  - split.
    + intros H. destruct (parameter_spec_from_config c) as [s|] eqn:PS; [|discriminate]. apply from_config_spec in PS. destruct PS as [BO ->].
      cbn [ps_code spec_of] in H. destruct (existsb (bytes_eqb (pc_code c)) seen) eqn:SE; [discriminate|].
      destruct (spec_loop l (pc_code c :: seen)) as [rest|] eqn:R; [|discriminate]. cbn [option_map] in H.
      apply IH in R. destruct R as (cs & -> & FB & ND & NS & ->). exists (c :: cs). split; [reflexivity|]. split; [constructor; assumption|].
      split; [cbn [map]; constructor; [|exact ND]|split].
      * intros I. apply in_map_iff in I. destruct I as (c' & E & I). apply (NS c' I). left. congruence.
      * intros c' [<-|I] X; [apply existsb_in in X; congruence|]. apply (NS c' I). right. exact X.
      * cbn [map]. congruence.
    + intros (cs & E & FB & ND & NS & ->). destruct cs as [|c' cs]; [discriminate|]. cbn [map] in E, ND. injection E as <- ->.
      inversion FB as [|? ? B1 B2]. inversion ND as [|? ? N1 N2].
      assert (PS : parameter_spec_from_config c = Some (spec_of c)) by (apply from_config_spec; auto). rewrite PS. cbn [ps_code spec_of].
      destruct (existsb (bytes_eqb (pc_code c)) seen) eqn:SE; [apply existsb_in in SE; destruct (NS c (or_introl eq_refl) SE)|].
      assert (R : spec_loop (map Some cs) (pc_code c :: seen) = Some (map spec_of cs)).
      { apply IH. exists cs. split; [reflexivity|]. split; [exact B2|]. split; [exact N2|]. split; [|reflexivity].
        intros c' I [X|X]; [apply N1; rewrite X; apply in_map; exact I|exact (NS c' (or_intror I) X)]. }
      rewrite R. reflexivity.
  - split; [discriminate|]. intros (cs & E & _). destruct cs; discriminate.
Qed.

(** ** Running *)
Section Run.
Context {F P CFG : Type}.
Variable pcode : P -> bytes.
Variable read_float : bytes -> option F.
Variable show_float : F -> bytes.
Variable percent_f percent_d : pyfloat -> bytes.
Variable w : @world F P CFG.
Variable traceback : exn -> bytes.
Variable script : bytes.
Notation event := (@event F P CFG).
Notation call := (@call F P CFG).
Notation history := (@history F P CFG).
Notation M := (@M F P CFG).

Lemma interpret_loop_spec specs args vs : List.length args = List.length specs ->
  (interpret_loop read_float specs args = Some vs <-> exists av, Forall2 (fun s ax => reads read_float s (fst ax) (snd ax)) specs av /\ args = map fst av /\ vs = map snd av).
Proof.
  revert args vs. induction specs as [|s specs IH]; intros [|[n v] args] vs L; try discriminate.
  - cbn [interpret_loop]. split.
    + intros H. exists []. split; [constructor|]. split; [reflexivity|cbn; congruence].
    + intros (av & F2 & _ & ->). inversion F2. reflexivity.
  - cbn [List.length] in L. injection L as L. cbn [interpret_loop].
    assert (VAL : forall x, (n = ps_code s /\ interpret_value read_float s v = Some x) <-> reads read_float s (n, v) x).
    { intros x. unfold interpret_value, reads. cbn [fst snd]. destruct (ps_integer s).
      - destruct (py_int v) as [z|e]; split; intros [E H]; (split; [exact E|]).
        + exists z. split; [reflexivity|congruence].
        + destruct H as (z' & H1 & ->). congruence.
        + discriminate.
        + destruct H as (z' & H1 & ->). discriminate.
      - destruct (read_float v) as [f|]; cbn [option_map]; split; intros [E H]; (split; [exact E|]).
        + exists f. split; [reflexivity|congruence].
        + destruct H as (f' & H1 & ->). congruence.
        + discriminate.
        + destruct H as (f' & H1 & ->). discriminate. }
    split.
    + intros H. destruct (bytes_eqb_spec n (ps_code s)) as [EN|]; cbn [negb] in H; [|discriminate].
      destruct (interpret_value read_float s v) as [x|] eqn:EV; [|discriminate].
      destruct (interpret_loop read_float specs args) as [xs|] eqn:EL; [|discriminate]. cbn [option_map] in H.
      apply IH in EL; [|exact L]. destruct EL as (av & F2 & -> & ->). exists (((n, v), x) :: av). split; [constructor; [apply VAL; auto|exact F2]|].
      split; [reflexivity|cbn [map snd]; congruence].
    + intros (av & F2 & EA & ->). inversion F2 as [|s' [a x] specs' av' R F2' E1 E2]. subst. cbn [map fst] in EA. injection EA as E1 ->. subst a.
      cbn [fst snd] in R. apply VAL in R. destruct R as [EN EV]. rewrite EN, bytes_eqb_refl. cbn [negb]. rewrite EV.
      assert (EL : interpret_loop read_float specs (map fst av') = Some (map snd av')) by (apply IH; [exact L|exists av'; auto]). rewrite EL. reflexivity.
Qed.

Lemma interpret_spec specs args vs :
  interpret_clop_parameters read_float specs args = Some vs <->
  exists av, Forall2 (fun s ax => reads read_float s (fst ax) (snd ax)) specs av /\ args = map fst av /\ vs = map snd av.
Proof.
  unfold interpret_clop_parameters. destruct (Nat.eqb_spec (List.length args) (List.length specs)) as [E|N]; cbn [negb].
  - apply interpret_loop_spec. exact E.
  - split; [discriminate|]. intros (av & F2 & -> & _). exfalso. apply N. rewrite map_length. symmetry. clear N vs.
    induction F2; cbn [List.length]; [reflexivity|congruence].
Qed.

Lemma pair_up_spec : forall l r, pair_up l = Some r <-> in_pairs l r.
Proof.
  fix IH 1. intros [|a [|b l]] r; cbn [pair_up].
  - split; [intros H; injection H as <-; constructor|intros H; inversion H; reflexivity].
  - split; [discriminate|intros H; inversion H].
  - split.
    + intros H. destruct (pair_up l) as [x|] eqn:E; [|discriminate]. injection H as <-. constructor. apply IH. exact E.
    + intros H. inversion H as [|n v l' r' H']. subst. apply IH in H'. rewrite H'. reflexivity.
Qed.

Lemma printed_app (a b : history) : printed (a ++ b) = printed a ++ printed b.
Proof. induction a as [|[c r|l|t] a IH]; cbn [app printed]; rewrite ?IH; reflexivity. Qed.
Lemma games_app (a b : history) : games (a ++ b) = games a ++ games b.
Proof. induction a as [|[c r|l|t] a IH]; cbn [app games]; [reflexivity|destruct c; rewrite IH; reflexivity|exact IH|exact IH]. Qed.

(** [m] prints nothing, starts no game, and passes on each exception, perhaps changed as by [T]. *)
Definition relation_on : Type := call -> exn -> exn -> Prop.
Definition passes (T : relation_on) (d : history) {A} (o : outcome A) : Prop :=
  forall c e, In (Called c (Raise e)) d -> exists e', o = Raise e' /\ T c e e'.
Definition tame (T : relation_on) {A} (m : M A) : Prop := forall h, exists d o,
  m h = (h ++ d, o) /\ printed d = [] /\ games d = [] /\ passes T d o.
Definition same : relation_on := fun _ e e' => e = e'.

Lemma tame_ret T {A} (a : A) : tame T (ret a).
Proof. intros h. exists [], (Good a). rewrite app_nil_r. split; [reflexivity|]. split; [reflexivity|]. split; [reflexivity|]. intros c e []. Qed.
Lemma tame_raise T {A} e : tame T (@raise F P CFG A e).
Proof. intros h. exists [], (Raise e). rewrite app_nil_r. split; [reflexivity|]. split; [reflexivity|]. split; [reflexivity|]. intros c e' []. Qed.
Lemma tame_complain T s : tame T (complain s).
Proof. intros h. exists [Complained s], (Good tt). split; [reflexivity|]. split; [reflexivity|]. split; [reflexivity|]. intros c e [X|[]]. discriminate. Qed.
Lemma games_called c (r : outcome (answer c)) : (forall j, c <> RunJob j) -> games [@Called F P CFG c r] = [].
Proof. intros N. cbn. destruct c; try reflexivity. destruct (N j eq_refl). Qed.
Definition raised_by (e : event) : option (call * exn) :=
  match e with Called c (Raise x) => Some (c, x) | _ => None end.
Lemma called_inv c r c' e : In (@Called F P CFG c' (Raise e)) [Called c r] -> c' = c /\ r = Raise e.
Proof.
  intros [X|[]]. apply (f_equal raised_by) in X. cbn in X. destruct r as [a|x]; [discriminate|]. injection X as -> ->. split; reflexivity.
Qed.
Lemma tame_ask (T : relation_on) c : (forall j, c <> RunJob j) -> (forall e, T c e e) -> tame T (ask w c).
Proof.
  intros N TR h. exists [Called c (w c h)], (w c h). split; [reflexivity|]. split; [reflexivity|]. split; [apply games_called; exact N|].
  intros c' e I. apply called_inv in I. destruct I as [-> E]. exists e. split; [exact E|apply TR].
Qed.
Lemma tame_bind T {A B} (m : M A) (f : A -> M B) : tame T m -> (forall a, tame T (f a)) -> tame T (bind m f).
Proof.
  intros Hm Hf h. destruct (Hm h) as (d & o & E & PR & GA & PA). unfold bind. rewrite E. destruct o as [a|e].
  - destruct (Hf a (h ++ d)) as (d2 & o2 & E2 & PR2 & GA2 & PA2). rewrite E2, <- app_assoc. exists (d ++ d2), o2. split; [reflexivity|].
    split; [rewrite printed_app, PR, PR2; reflexivity|]. split; [rewrite games_app, GA, GA2; reflexivity|].
    intros c e I. apply in_app_iff in I. destruct I as [I|I]; [destruct (PA c e I) as (e' & X & _); discriminate|apply PA2; exact I].
  - exists d, (Raise e). split; [reflexivity|]. split; [exact PR|]. split; [exact GA|]. intros c x I. destruct (PA c x I) as (e' & X & Y). exists e'. split; [congruence|exact Y].
Qed.
Lemma tame_catch (T T' : relation_on) {A} (m : M A) g : tame T m -> (forall c e e', T c e e' -> T' c e (g e')) -> tame T' (catch m (fun e => raise (g e))).
Proof.
  intros Hm HG h. destruct (Hm h) as (d & o & E & PR & GA & PA). unfold catch. rewrite E. destruct o as [a|e].
  - exists d, (Good a). split; [reflexivity|]. split; [exact PR|]. split; [exact GA|]. intros c x I. destruct (PA c x I) as (e' & X & _). discriminate.
  - exists d, (Raise (g e)). split; [reflexivity|]. split; [exact PR|]. split; [exact GA|]. intros c x I. destruct (PA c x I) as (e' & X & Y). injection X as ->. exists (g e'). split; [reflexivity|apply HG; exact Y].
Qed.
Lemma tame_each T {A} (l : list A) f : (forall a, tame T (f a)) -> tame T (each l f).
Proof. intros H. induction l as [|a l IH]; cbn [each]; [apply tame_ret|apply tame_bind; auto]. Qed.
Lemma catch_ext {A} (m : M A) f g : (forall e h, f e h = g e h) -> forall h, catch m f h = catch m g h.
Proof. intros H h. unfold catch. destruct (m h) as [h' [a|e]]; [reflexivity|apply H]. Qed.
Lemma tame_ext T {A} (m n : M A) : (forall h, m h = n h) -> tame T n -> tame T m.
Proof. intros E H h. rewrite E. apply H. Qed.

(** *** play *)
Definition from_maker (c : call) : bool := match c with MakeCandidate _ | PlayerFromConfig _ _ => true | _ => false end.
Definition in_play (c : call) : bool := match c with MakeCandidate _ | PlayerFromConfig _ _ | WriteLog _ | RunJob _ => true | _ => false end.
Definition T0 : relation_on := fun c e e' => in_play c = true /\ if from_maker c && is_exception e then exists t, e' = XCompetition t else e' = e.

Lemma catch_raise {A} (m : M A) (b : exn -> bool) (g : exn -> exn) h :
  catch m (fun e => if b e then raise (g e) else raise e) h = catch m (fun e => raise (if b e then g e else e)) h.
Proof. apply catch_ext. intros e h'. destruct (b e); reflexivity. Qed.

Lemma tame_translated c (N : forall j, c <> RunJob j) (FM : from_maker c = true) g : (forall e, exists t, g e = XCompetition t) ->
  tame T0 (catch (ask w c) (fun e => if is_exception e then raise (g e) else raise e)).
Proof.
  intros G. eapply tame_ext; [intros h; apply catch_raise|]. apply tame_catch with (T := fun c' e e' => c' = c /\ e = e').
  - intros h. exists [Called c (w c h)], (w c h). split; [reflexivity|]. split; [reflexivity|]. split; [apply games_called; exact N|].
    intros c' e I. apply called_inv in I. destruct I as [-> E]. exists e. auto.
  - intros c' e e' [-> ->]. unfold T0. split; [destruct c; try discriminate FM; reflexivity|]. rewrite FM. cbn [andb]. destruct (is_exception e'); [apply G|reflexivity].
Qed.

Lemma catch_ask c f h : catch (ask w c) f h = match w c h with Good a => (h ++ [Called c (Good a)], Good a) | Raise e => f e (h ++ [Called c (Raise e)]) end.
Proof. unfold catch, ask. destruct (w c h); reflexivity. Qed.
Lemma bind_ask {B} c (f : answer c -> M B) h : bind (ask w c) f h = match w c h with Good a => f a (h ++ [Called c (Good a)]) | Raise e => (h ++ [Called c (Raise e)], Raise e) end.
Proof. unfold bind, ask. destruct (w c h); reflexivity. Qed.
Lemma bind_bind {A B C} (m : M A) (f : A -> M B) (g : B -> M C) h : bind (bind m f) g h = bind m (fun a => bind (f a) g) h.
Proof. unfold bind. destruct (m h) as [h' [a|e]]; reflexivity. Qed.
Lemma bind_catch_ask {B} c g (f : answer c -> M B) h :
  bind (catch (ask w c) g) f h =
  match w c h with Good a => f a (h ++ [Called c (Good a)]) | Raise e => bind (g e) f (h ++ [Called c (Raise e)]) end.
Proof. unfold bind at 1. rewrite catch_ask. destruct (w c h); reflexivity. Qed.

(** Making the candidate: the player comes from what the maker returned; otherwise an
    exception is raised, because a call raised one or the maker returned no Player. *)
Lemma make_candidate_spec t code vs h : exists d o,
  make_candidate show_float w traceback t code vs h = (h ++ d, o) /\ printed d = [] /\ games d = [] /\ passes T0 d o /\
  match o with
  | Good p => exists cfg, In (Called (MakeCandidate vs) (Good (Some cfg))) d /\ In (Called (PlayerFromConfig code cfg) (Good p)) d
  | Raise e => (exists t', e = XCompetition t' /\ In (Called (MakeCandidate vs) (Good None)) d) \/ exists c x, In (Called c (Raise x)) d
  end.
Proof.
  assert (TM : tame T0 (make_candidate show_float w traceback t code vs)).
  { unfold make_candidate. apply tame_bind.
    - apply tame_translated; [discriminate|reflexivity|]. intros e. eexists. reflexivity.
    - intros [c|]; [|apply tame_raise]. apply (tame_translated (PlayerFromConfig code c) ltac:(discriminate) eq_refl (fun e => XCompetition _)). intros e. eexists. reflexivity. }
  destruct (TM h) as (d & o & E & PR & GA & PA). exists d, o. split; [exact E|]. split; [exact PR|]. split; [exact GA|]. split; [exact PA|].
  unfold make_candidate in E. rewrite bind_catch_ask in E. destruct (w (MakeCandidate vs) h) as [[cfg|]|e] eqn:W1.
  - rewrite (catch_ask (PlayerFromConfig code cfg)) in E. match type of E with (match ?x with _ => _ end = _) => destruct x as [p|e] end.
    + apply pair_equal_spec in E. destruct E as [E1 E2]. rewrite <- app_assoc in E1. apply app_inv_head in E1. subst d o. exists cfg. split; [left; reflexivity|right; left; reflexivity].
    + destruct (is_exception e); apply pair_equal_spec in E; destruct E as [E1 E2]; rewrite <- app_assoc in E1; apply app_inv_head in E1; subst d o; right; do 2 eexists; right; left; reflexivity.
  - apply pair_equal_spec in E. destruct E as [E1 E2]. apply app_inv_head in E1. subst d o. left. eexists. split; [reflexivity|left; reflexivity].
  - unfold bind in E. destruct (is_exception e); apply pair_equal_spec in E; destruct E as [E1 E2]; apply app_inv_head in E1; subst d o; right; do 2 eexists; left; reflexivity.
Qed.

Definition raised (d : history) : Prop := exists c x, In (Called c (Raise x)) d.
Lemma raised_l a b : raised a -> raised (a ++ b).
Proof. intros (c & x & I). exists c, x. apply in_app_iff. auto. Qed.
Lemma raised_r a b : raised b -> raised (a ++ b).
Proof. intros (c & x & I). exists c, x. apply in_app_iff. auto. Qed.
Definition strict {A} (m : M A) : Prop := forall h, exists d o, m h = (h ++ d, o) /\ (forall e, o = Raise e -> raised d).
Lemma strict_ask c : strict (ask w c).
Proof. intros h. exists [Called c (w c h)], (w c h). split; [reflexivity|]. intros e E. exists c, e. left. rewrite E. reflexivity. Qed.
Lemma strict_complain s : strict (complain s).
Proof. intros h. exists [Complained s], (Good tt). split; [reflexivity|discriminate]. Qed.
Lemma strict_ret {A} (a : A) : strict (ret a).
Proof. intros h. exists [], (Good a). rewrite app_nil_r. split; [reflexivity|discriminate]. Qed.
Lemma strict_bind {A B} (m : M A) (f : A -> M B) : strict m -> (forall a, strict (f a)) -> strict (bind m f).
Proof.
  intros Hm Hf h. destruct (Hm h) as (d & o & E & R). unfold bind. rewrite E. destruct o as [a|e].
  - destruct (Hf a (h ++ d)) as (d2 & o2 & E2 & R2). rewrite E2, <- app_assoc. exists (d ++ d2), o2. split; [reflexivity|]. intros e X. apply raised_r. eauto.
  - exists d, (Raise e). split; [reflexivity|]. intros e' _. eauto.
Qed.
Lemma strict_each {A} (l : list A) f : (forall a, strict (f a)) -> strict (each l f).
Proof. intros H. induction l as [|a l IH]; cbn [each]; [apply strict_ret|apply strict_bind; auto]. Qed.
Lemma strict_catch {A} (m : M A) g : strict m -> strict (catch m (fun e => raise (g e))).
Proof.
  intros Hm h. destruct (Hm h) as (d & o & E & R). unfold catch. rewrite E. destruct o as [a|e].
  - exists d, (Good a). split; [reflexivity|discriminate].
  - exists d, (Raise (g e)). split; [reflexivity|]. intros e' _. eauto.
Qed.

(** After the game. *)
Definition finish (r : response) : M response :=
  bind (ask w (WriteLog (str "response from game " ++ rs_id r))) (fun _ =>
  bind (each (rs_warnings r) (warn w)) (fun _ => bind (each (rs_entries r) (fun e => ask w (WriteLog e))) (fun _ => ret r))).
Lemma T0_log s e : T0 (WriteLog s) e e.
Proof. split; reflexivity. Qed.
Lemma tame_log s : tame T0 (ask w (WriteLog s)).
Proof. apply tame_ask; [discriminate|apply T0_log]. Qed.
Lemma tame_finish r : tame T0 (finish r).
Proof.
  unfold finish. apply tame_bind; [apply tame_log|intros _]. apply tame_bind; [apply tame_each; intros s; unfold warn; apply tame_bind; [apply tame_log|intros _; apply tame_complain]|intros _].
  apply tame_bind; [apply tame_each; intros s; apply tame_log|intros _; apply tame_ret].
Qed.
Lemma strict_finish r : strict (finish r).
Proof.
  unfold finish. apply strict_bind; [apply strict_ask|intros _]. apply strict_bind; [apply strict_each; intros s; unfold warn; apply strict_bind; [apply strict_ask|intros _; apply strict_complain]|intros _].
  apply strict_bind; [apply strict_each; intros s; exact (strict_ask (WriteLog s))|intros _; apply strict_ret].
Qed.
Lemma bind_good {A B} (m : M A) (f : A -> M B) h h' b : bind m f h = (h', Good b) -> exists a h1, m h = (h1, Good a) /\ f a h1 = (h', Good b).
Proof. unfold bind. destruct (m h) as [h1 [a|e]]; [eauto|discriminate]. Qed.
Lemma finish_good r h h' r' : finish r h = (h', Good r') -> r' = r.
Proof.
  unfold finish. intros E. apply bind_good in E. destruct E as (? & ? & _ & E). apply bind_good in E. destruct E as (? & ? & _ & E).
  apply bind_good in E. destruct E as (? & ? & _ & E). unfold ret in E. congruence.
Qed.

Lemma play_spec g seed args h : exists d o,
  play pcode read_float show_float w traceback g seed args h = (h ++ d, o) /\ printed d = [] /\ passes T0 d o /\
  ((games d = [] /\ exists e, o = Raise e /\
      ((interpret_clop_parameters read_float (t_specs (r_tuner g)) args = None /\ exists t, e = XCompetition t) \/
       (exists vs t, interpret_clop_parameters read_float (t_specs (r_tuner g)) args = Some vs /\ e = XCompetition t /\ In (Called (MakeCandidate vs) (Good None)) d) \/
       raised d)) \/
   exists vs cfg p j, interpret_clop_parameters read_float (t_specs (r_tuner g)) args = Some vs /\
      In (Called (MakeCandidate vs) (Good (Some cfg))) d /\ In (Called (PlayerFromConfig (str "#" ++ seed) cfg) (Good p)) d /\
      games d = [j] /\ right_game (r_tuner g) seed p j /\ right_files (r_files g) (r_record g) (r_gtp_logs g) (r_stderr_to_log g) seed j /\
      match o with Good r => In (Called (RunJob j) (Good r)) d | Raise _ => raised d end).
Proof.
  unfold play, get_game_for_parameters. set (X := interpret_clop_parameters read_float (t_specs (r_tuner g)) args). destruct X as [vs|] eqn:EI; subst X.
  2:{ exists [], (Raise (XCompetition (str "couldn't interpret parameters"))). rewrite app_nil_r. split; [reflexivity|]. split; [reflexivity|]. split; [intros c e []|].
      left. split; [reflexivity|]. eexists. split; [reflexivity|]. left. split; [reflexivity|eauto]. }
  destruct (make_candidate_spec (r_tuner g) (str "#" ++ seed) vs h) as (d & o & E & PR & GA & PA & C).
  unfold bind at 1 2. rewrite E. destruct o as [p|e].
  2:{ exists d, (Raise e). split; [reflexivity|]. split; [exact PR|]. split; [intros c x I; destruct (PA c x I) as (e' & E1 & E2); exists e'; split; [congruence|exact E2]|].
      left. split; [exact GA|]. exists e. split; [reflexivity|]. destruct C as [(t & -> & I)|R]; [right; left; exists vs, t; auto|right; right; exact R]. }
  destruct C as (cfg & I1 & I2).
  set (J := let '(b, wh) := match t_colour (r_tuner g) with Black => (p, t_opponent (r_tuner g)) | White => (t_opponent (r_tuner g), p) end in
      mkJob seed b wh (t_size (r_tuner g)) (t_komi (r_tuner g)) (t_limit (r_tuner g)) (t_handicap (r_tuner g)) (t_free (r_tuner g)) (t_internal (r_tuner g)) (t_comp (r_tuner g))
        (r_code g) (str "Candidate parameters: " ++ format_engine_parameters show_float (t_specs (r_tuner g)) vs) None None None None).
  match goal with |- context [(let '(b, wh) := _ in ret (mkJob _ b wh _ _ _ _ _ _ _ _ _ _ _ _ _)) ?hh] =>
    match goal with |- context [?m hh] => replace (m hh) with (hh, @Good job J) by (unfold J; destruct (t_colour (r_tuner g)); reflexivity) end end.
  set (j := prepare_job g J).
  assert (RG : right_game (r_tuner g) seed p j).
  { unfold right_game, j, J, prepare_job. destruct (t_colour (r_tuner g)); cbn; repeat (split; [first [reflexivity|discriminate|intros _; split; reflexivity|intros X; discriminate X]|]); reflexivity. }
  assert (RF : right_files (r_files g) (r_record g) (r_gtp_logs g) (r_stderr_to_log g) seed j).
  { unfold right_files, j, J, prepare_job. destruct (t_colour (r_tuner g)); cbn; split; [reflexivity|split; reflexivity|reflexivity|split; reflexivity]. }
  rewrite bind_ask.
  match goal with |- context [w (WriteLog ?l) _] => set (c1 := WriteLog l) end. destruct (w c1 (h ++ d)) as [[]|e] eqn:W1.
  2:{ exists (d ++ [Called c1 (Raise e)]), (Raise e). rewrite <- app_assoc. split; [reflexivity|]. split; [rewrite printed_app, PR; reflexivity|].
      split.
      - intros c x I. apply in_app_iff in I. destruct I as [I|I]; [destruct (PA c x I) as (? & X & _); discriminate|]. apply called_inv in I. destruct I as [-> X]. exists x. split; [congruence|split; reflexivity].
      - left. split; [rewrite games_app, GA; reflexivity|]. exists e. split; [reflexivity|]. right. right. apply raised_r. exists c1, e. left. reflexivity. }
  rewrite bind_ask. match goal with |- context [w (RunJob j) ?hh] => destruct (w (RunJob j) hh) as [r|e] end.
  2:{ exists (d ++ [Called c1 (Good tt); Called (RunJob j) (Raise e)]), (Raise e). rewrite <- !app_assoc. split; [reflexivity|]. split; [rewrite printed_app, PR; reflexivity|].
      split.
      - intros c x I. apply in_app_iff in I. destruct I as [I|[I|I]]; [destruct (PA c x I) as (? & X & _); discriminate|apply (f_equal raised_by) in I; discriminate|]. apply called_inv in I. destruct I as [-> X]. exists x. split; [congruence|split; reflexivity].
      - right. exists vs, cfg, p, j. split; [reflexivity|]. split; [apply in_app_iff; auto|]. split; [apply in_app_iff; auto|]. split; [rewrite games_app, GA; reflexivity|]. split; [exact RG|]. split; [exact RF|].
        apply raised_r. exists (RunJob j), e. right. left. reflexivity. }
  change (exists d0 o, finish r (((h ++ d) ++ [Called c1 (Good tt)]) ++ [Called (RunJob j) (Good r)]) = (h ++ d0, o) /\ printed d0 = [] /\ passes T0 d0 o /\
    ((games d0 = [] /\ exists e, o = Raise e /\
      ((Some vs = None /\ exists t, e = XCompetition t) \/
       (exists vs0 t, Some vs = Some vs0 /\ e = XCompetition t /\ In (Called (MakeCandidate vs0) (Good None)) d0) \/ raised d0)) \/
     exists vs0 cfg0 p0 j0, Some vs = Some vs0 /\
      In (Called (MakeCandidate vs0) (Good (Some cfg0))) d0 /\ In (Called (PlayerFromConfig (str "#" ++ seed) cfg0) (Good p0)) d0 /\
      games d0 = [j0] /\ right_game (r_tuner g) seed p0 j0 /\ right_files (r_files g) (r_record g) (r_gtp_logs g) (r_stderr_to_log g) seed j0 /\
      match o with Good r => In (Called (RunJob j0) (Good r)) d0 | Raise _ => raised d0 end)).
  rewrite <- !app_assoc. cbn [app]. set (H := h ++ d ++ [Called c1 (Good tt); Called (RunJob j) (Good r)]).
  destruct (tame_finish r H) as (d2 & o2 & E2 & PR2 & GA2 & PA2). destruct (strict_finish r H) as (d3 & o3 & E3 & S3).
  assert (d3 = d2 /\ o3 = o2) as [-> ->].
  { rewrite E2 in E3. apply pair_equal_spec in E3. destruct E3 as [X ->]. apply app_inv_head in X. auto. }
  exists (d ++ [Called c1 (Good tt); Called (RunJob j) (Good r)] ++ d2), o2. split; [rewrite E2; unfold H; rewrite <- !app_assoc; reflexivity|].
  split; [rewrite !printed_app, PR, PR2; reflexivity|]. split.
  - intros c x I. apply in_app_iff in I. destruct I as [I|I]; [destruct (PA c x I) as (? & X & _); discriminate|]. apply in_app_iff in I. destruct I as [[I|[I|[]]]|I]; [apply (f_equal raised_by) in I; discriminate|apply (f_equal raised_by) in I; discriminate|apply PA2; exact I].
  - right. exists vs, cfg, p, j. split; [reflexivity|]. split; [apply in_app_iff; auto|]. split; [apply in_app_iff; auto|]. split; [rewrite !games_app, GA, GA2; reflexivity|]. split; [exact RG|]. split; [exact RF|].
    destruct o2 as [r'|e]; [rewrite (finish_good _ _ _ _ E2); apply in_app_iff; right; right; left; reflexivity|]. apply raised_r, raised_r. apply (S3 e). reflexivity.
Qed.

(** *** run_game_for_clop *)
Definition cls (e : exn) : Z := match e with XRing _ => 1 | XKeyboard => 3 | _ => 4 end.
Definition T1 : relation_on := fun c e e' => cls e' = expected c e.
Lemma T0_T1 c e e' : T0 c e e' -> T1 c e (match e' with XCompetition t => XRing t | XJobFailed t => XRing t | _ => e' end).
Proof.
  unfold T0, T1. intros [IP H]. destruct c; try discriminate IP; cbn [from_maker andb] in H; destruct e; cbn [is_exception] in H;
    first [destruct H as (t & ->); reflexivity|subst e'; reflexivity].
Qed.

Lemma run_game_spec g seed args h : exists d o,
  run_game_for_clop pcode read_float show_float w traceback g seed args h = (h ++ d, o) /\ printed d = [] /\ passes T1 d o /\
  (games d = [] \/ exists j, games d = [j] /\ candidate_game read_float (r_tuner g) (r_files g) (r_record g) (r_gtp_logs g) (r_stderr_to_log g) seed args d j) /\
  match o with
  | Good m => exists j r, games d = [j] /\ In (Called (RunJob j) (Good r)) d /\ verdict (t_colour (r_tuner g)) (t_stop_on_error (r_tuner g)) (rs_result r) m
  | Raise e => raised d \/ (cls e = 1 /\
      ((~ exists av, Forall2 (fun s ax => reads read_float s (fst ax) (snd ax)) (t_specs (r_tuner g)) av /\ args = map fst av) \/
       (exists vs, In (Called (MakeCandidate vs) (Good None)) d) \/
       (exists j r, In (Called (RunJob j) (Good r)) d /\ t_stop_on_error (r_tuner g) = false /\ gr_winner (rs_result r) = None /\ gr_jigo (rs_result r) = false)))
  end.
Proof.
  destruct (play_spec g seed args h) as (d & o & E & PR & PA & C).
  unfold run_game_for_clop, bind, catch. rewrite E. destruct o as [r|e].
  - destruct C as [(_ & e & X & _)|(vs & cfg & p & j & EI & I1 & I2 & GA & RG & RF & IR)]; [discriminate|].
    assert (GG : games d = [] \/ exists j, games d = [j] /\ candidate_game read_float (r_tuner g) (r_files g) (r_record g) (r_gtp_logs g) (r_stderr_to_log g) seed args d j).
    { right. exists j. split; [exact GA|]. apply interpret_spec in EI. destruct EI as (av & F2 & EA & ->). exists av, cfg, p. split; [exact F2|]. split; [exact EA|]. split; [exact I1|]. split; [exact I2|]. split; [exact RG|exact RF]. }
    assert (NR : forall A (o : outcome A), passes T1 d o).
    { intros A o c x I. destruct (PA c x I) as (e' & X & _). discriminate. }
    assert (DONE : forall m, verdict (t_colour (r_tuner g)) (t_stop_on_error (r_tuner g)) (rs_result r) m ->
      exists d0 o, (h ++ d, Good m) = (h ++ d0, o) /\ printed d0 = [] /\ passes T1 d0 o /\
       (games d0 = [] \/ exists j, games d0 = [j] /\ candidate_game read_float (r_tuner g) (r_files g) (r_record g) (r_gtp_logs g) (r_stderr_to_log g) seed args d0 j) /\
       match o with
       | Good m => exists j r, games d0 = [j] /\ In (Called (RunJob j) (Good r)) d0 /\ verdict (t_colour (r_tuner g)) (t_stop_on_error (r_tuner g)) (rs_result r) m
       | Raise e => raised d0 \/ (cls e = 1 /\
           ((~ exists av, Forall2 (fun s ax => reads read_float s (fst ax) (snd ax)) (t_specs (r_tuner g)) av /\ args = map fst av) \/
            (exists vs, In (Called (MakeCandidate vs) (Good None)) d0) \/
            (exists j r, In (Called (RunJob j) (Good r)) d0 /\ t_stop_on_error (r_tuner g) = false /\ gr_winner (rs_result r) = None /\ gr_jigo (rs_result r) = false)))
       end).
    { intros m V. exists d, (Good m). split; [reflexivity|]. split; [exact PR|]. split; [apply NR|]. split; [exact GG|]. exists j, r. auto. }
    unfold ret. unfold verdict in DONE.
    destruct (gr_winner (rs_result r)) as [x|] eqn:EW.
    + destruct x, (t_colour (r_tuner g)); cbn [colour_eqb opponent_of]; (apply DONE; [left; split; reflexivity]) || (apply DONE; right; left; split; reflexivity).
    + destruct (gr_jigo (rs_result r)) eqn:EJ; [apply DONE; right; right; auto|]. destruct (t_stop_on_error (r_tuner g)) eqn:ES; [apply DONE; right; right; auto|].
      exists d, (Raise (XRing (str "unexpected game result: " ++ gr_sgf (rs_result r)))). split; [reflexivity|]. split; [exact PR|]. split; [apply NR|]. split; [exact GG|].
      right. split; [reflexivity|]. right. right. exists j, r. auto.
  - set (e1 := match e with XCompetition t => XRing t | XJobFailed t => XRing t | _ => e end).
    exists d, (Raise e1). split; [unfold e1; destruct e; reflexivity|]. split; [exact PR|].
    split; [intros c x I; destruct (PA c x I) as (e' & X & Y); injection X as ->; exists e1; split; [reflexivity|apply T0_T1; exact Y]|].
    destruct C as [(GA & e' & X & C)|(vs & cfg & p & j & EI & I1 & I2 & GA & RG & RF & R)].
    + injection X as <-. split; [left; exact GA|]. destruct C as [(EI & t & ->)|[(vs & t & EI & -> & I)|R]]; [right|right|left; exact R].
      * split; [reflexivity|]. left. intros (av & F2 & ->). assert (Y : interpret_clop_parameters read_float (t_specs (r_tuner g)) (map fst av) = Some (map snd av)) by (apply interpret_spec; eauto). congruence.
      * split; [reflexivity|]. right. left. eauto.
    + split; [|left; exact R]. right. exists j. split; [exact GA|]. apply interpret_spec in EI. destruct EI as (av & F2 & EA & ->). exists av, cfg, p. auto 10.
Qed.

(** *** do_run_game and main *)
Lemma candidate_more (t : @tuner P) files a b c seed args (d1 d d2 : history) j : candidate_game read_float t files a b c seed args d j -> candidate_game read_float t files a b c seed args (d1 ++ d ++ d2) j.
Proof.
  intros (av & cfg & p & F2 & EA & I1 & I2 & R). exists av, cfg, p. split; [exact F2|]. split; [exact EA|]. split; [apply in_app_iff; right; apply in_app_iff; auto|]. split; [apply in_app_iff; right; apply in_app_iff; auto|exact R].
Qed.

Lemma run_command control arguments : exists h s,
  main_command pcode read_float show_float percent_f percent_d w traceback script control RunGame arguments [] = (h, Good s) /\
  (forall c e, In (Called c (Raise e)) h -> s = expected c e) /\
  ((s = 0 /\ exists record logs err t files proc seed more args j r m,
      arguments = proc :: seed :: more /\ in_pairs more args /\ competition_files control = Ok files /\
      In (Called LoadRingmaster (Good (record, logs, err, t))) h /\
      games h = [j] /\ candidate_game read_float t files record logs err seed args h j /\
      In (Called (RunJob j) (Good r)) h /\ verdict (t_colour t) (t_stop_on_error t) (rs_result r) m /\ printed h = [m]) \/
   ((s = 1 \/ s = 3 \/ s = 4) /\ printed h = [str "Error"] /\
    (games h = [] \/ exists record logs err t files proc seed more args j,
      arguments = proc :: seed :: more /\ in_pairs more args /\ competition_files control = Ok files /\
      In (Called LoadRingmaster (Good (record, logs, err, t))) h /\
      games h = [j] /\ candidate_game read_float t files record logs err seed args h j) /\
    (raised h \/ (s = 1 /\ no_good read_float control arguments h)))).
Proof.
  (* a failing command *)
  assert (FAIL : forall d e, perform pcode read_float show_float percent_f percent_d w traceback script control RunGame arguments [] = (d, Raise e) ->
    passes T1 d (@Raise unit e) -> printed d = [] ->
    (games d = [] \/ exists record logs err t files proc seed more args j,
      arguments = proc :: seed :: more /\ in_pairs more args /\ competition_files control = Ok files /\
      In (Called LoadRingmaster (Good (record, logs, err, t))) d /\
      games d = [j] /\ candidate_game read_float t files record logs err seed args d j) ->
    (raised d \/ (cls e = 1 /\ no_good read_float control arguments d)) ->
    exists h s, main_command pcode read_float show_float percent_f percent_d w traceback script control RunGame arguments [] = (h, Good s) /\
      (forall c e, In (Called c (Raise e)) h -> s = expected c e) /\
      ((s = 1 \/ s = 3 \/ s = 4) /\ printed h = [str "Error"] /\
       (games h = [] \/ exists record logs err t files proc seed more args j,
         arguments = proc :: seed :: more /\ in_pairs more args /\ competition_files control = Ok files /\
         In (Called LoadRingmaster (Good (record, logs, err, t))) h /\
         games h = [j] /\ candidate_game read_float t files record logs err seed args h j) /\
       (raised h \/ (s = 1 /\ no_good read_float control arguments h)))).
  { intros d e E PA PR G C.
    assert (K : exists extra, main_command pcode read_float show_float percent_f percent_d w traceback script control RunGame arguments [] = (d ++ extra, Good (cls e)) /\
      printed extra = [str "Error"] /\ games extra = [] /\ (forall c x, ~ In (Called c (Raise x)) extra)).
    { unfold main_command, status, catch, bind. rewrite E.
      destruct e; cbv beta iota delta [complain ret say cls negb andb Z.eqb]; rewrite <- ?app_assoc;
        (eexists; split; [reflexivity|]; split; [reflexivity|]; split; [reflexivity|]; intros c x I; cbn in I; repeat (destruct I as [I|I]; [apply (f_equal raised_by) in I; discriminate|]); exact I). }
    destruct K as (extra & E2 & PX & GX & NX). exists (d ++ extra), (cls e). split; [exact E2|].
    assert (IN : forall x, In x d -> In x (d ++ extra)) by (intros x I; apply in_app_iff; auto). split; [|split; [|split; [|split]]].
    - intros c x I. apply in_app_iff in I. destruct I as [I|I]; [|destruct (NX _ _ I)]. destruct (PA c x I) as (e' & X & Y). injection X as <-. exact Y.
    - destruct e; cbn; auto.
    - rewrite printed_app, PR, PX. reflexivity.
    - destruct G as [G|(record & logs & err & t & files & proc & seed & more & args & j & G1 & G2 & G3 & G4 & G5 & G6)].
      + left. rewrite games_app, G, GX. reflexivity.
      + right. exists record, logs, err, t, files, proc, seed, more, args, j. split; [exact G1|]. split; [exact G2|]. split; [exact G3|]. split; [apply IN; exact G4|].
        split; [rewrite games_app, G5, GX; reflexivity|]. exact (candidate_more _ _ _ _ _ _ _ [] _ extra _ G6).
    - destruct C as [R|[X N]]; [left; apply raised_l; exact R|right; split; [exact X|]].
      destruct N as [N|[N|[N|[N|(record & logs & err & t & I & N)]]]]; [left; auto|right; left; exact N|right; right; left; exact N|right; right; right; left; exact N|].
      right. right. right. right. exists record, logs, err, t. split; [auto|]. destruct N as [N|[(vs & N)|(j & r & N1 & N2)]]; [left; exact N|right; left; eauto|right; right; exists j, r; auto]. }
  destruct (perform pcode read_float show_float percent_f percent_d w traceback script control RunGame arguments []) as [d o] eqn:E0.
  pose proof E0 as E. unfold perform in E. rewrite bind_ask in E. cbn [app] in E.
  destruct (w ControlExists []) as [ex|e].
  2:{ apply pair_equal_spec in E. destruct E as [<- <-]. destruct (FAIL _ e eq_refl) as (h & s & H1 & H2 & H3).
      - intros c x I. apply called_inv in I. destruct I as [-> X]. injection X as ->. exists x. split; [reflexivity|]. destruct x; reflexivity.
      - reflexivity.
      - left; reflexivity.
      - left. eexists _, _. left. reflexivity.
      - exists h, s. auto. }
  destruct ex; cbn [negb] in E.
  2:{ apply pair_equal_spec in E. destruct E as [<- <-]. destruct (FAIL _ _ eq_refl) as (h & s & H1 & H2 & H3).
      - intros c x I. apply called_inv in I. destruct I as [-> X]. discriminate.
      - reflexivity.
      - left; reflexivity.
      - right. split; [reflexivity|]. left. left. reflexivity.
      - exists h, s. auto. }
  destruct (competition_files control) as [files|x] eqn:EF.
  2:{ apply pair_equal_spec in E. destruct E as [<- <-]. destruct (FAIL _ _ eq_refl) as (h & s & H1 & H2 & H3).
      - intros c y I. apply called_inv in I. destruct I as [-> X]. discriminate.
      - reflexivity.
      - left; reflexivity.
      - right. split; [reflexivity|]. right. left. unfold competition_files in EF. destruct (os_split control) as [b name]. destruct (splitext name) as [code ext] eqn:ES.
        destruct (existsb (bytes_eqb ext) forbidden) eqn:EX; [|discriminate]. apply existsb_in in EX. cbn [snd]. rewrite ES. exact EX.
      - exists h, s. auto. }
  rewrite bind_ask in E.
  match type of E with (match ?x with _ => _ end = _) => destruct x as [[[[record logs] err] t]|e] end.
  2:{ apply pair_equal_spec in E. destruct E as [<- <-]. destruct (FAIL _ e eq_refl) as (h & s & H1 & H2 & H3).
      - intros c x [I|I]; [apply (f_equal raised_by) in I; discriminate|]. apply called_inv in I. destruct I as [-> X]. injection X as ->. exists x. split; [reflexivity|]. destruct x; reflexivity.
      - reflexivity.
      - left; reflexivity.
      - left. eexists _, _. right. left. reflexivity.
      - exists h, s. auto. }
  cbn [app] in E. set (D0 := [@Called F P CFG ControlExists (Good true); Called LoadRingmaster (Good (record, logs, err, t))]) in E.
  assert (N0 : forall c x, ~ In (Called c (Raise x)) D0).
  { intros c x [I|[I|[]]]; apply (f_equal raised_by) in I; discriminate. }
  assert (I0 : In (Called LoadRingmaster (Good (record, logs, err, t))) D0) by (right; left; reflexivity).
  set (g := mkRing files record logs err t) in E. unfold do_run_game in E.
  assert (EARLY : forall t', (D0, @Raise unit (XRing t')) = (d, o) -> no_good read_float control arguments D0 -> exists h s,
     main_command pcode read_float show_float percent_f percent_d w traceback script control RunGame arguments [] = (h, Good s) /\
      (forall c e, In (Called c (Raise e)) h -> s = expected c e) /\
      ((s = 1 \/ s = 3 \/ s = 4) /\ printed h = [str "Error"] /\
       (games h = [] \/ exists record logs err t files proc seed more args j,
         arguments = proc :: seed :: more /\ in_pairs more args /\ competition_files control = Ok files /\
         In (Called LoadRingmaster (Good (record, logs, err, t))) h /\
         games h = [j] /\ candidate_game read_float t files record logs err seed args h j) /\
       (raised h \/ (s = 1 /\ no_good read_float control arguments h)))).
  { intros t' X N. apply pair_equal_spec in X. destruct X as [<- <-]. rewrite <- EF in FAIL. apply (FAIL _ _ eq_refl); [intros c x I; destruct (N0 _ _ I)|reflexivity|left; reflexivity|right; split; [reflexivity|exact N]]. }
  rewrite EF in EARLY.
  destruct arguments as [|proc [|seed more]].
  { destruct (EARLY _ E) as (h & s & H1 & H2 & H3); [right; right; left; cbn; lia|exists h, s; auto]. }
  { destruct (EARLY _ E) as (h & s & H1 & H2 & H3); [right; right; left; cbn; lia|exists h, s; auto]. }
  destruct (pair_up more) as [args|] eqn:EP.
  2:{ destruct (EARLY _ E) as (h & s & H1 & H2 & H3); [|exists h, s; auto]. right. right. right. left. intros args X. apply pair_up_spec in X. cbn [skipn] in X. congruence. }
  unfold open_logfile in E.
  assert (OL : forall h, catch (ask w (OpenLog (log_pathname g))) (fun e => match e with XEnvironment t => raise (XRing (str "failed to open log file:" ++ nl ++ t)) | _ => raise e end) h =
      catch (ask w (OpenLog (log_pathname g))) (fun e => raise (match e with XEnvironment t => XRing (str "failed to open log file:" ++ nl ++ t) | _ => e end)) h).
  { apply catch_ext. intros e h. destruct e; reflexivity. }
  unfold bind at 1 in E. rewrite OL, catch_ask in E.
  match type of E with (let '(h', r) := match ?x with _ => _ end in _) = _ => destruct x as [[]|e] end.
  2:{ cbn beta iota in E. apply pair_equal_spec in E. destruct E as [<- <-]. destruct (FAIL _ _ eq_refl) as (h & s & H1 & H2 & H3).
      - intros c x I. apply in_app_iff in I. destruct I as [I|I]; [destruct (N0 _ _ I)|]. apply called_inv in I. destruct I as [-> X]. injection X as ->. eexists. split; [reflexivity|]. destruct x; reflexivity.
      - reflexivity.
      - left; reflexivity.
      - left. apply raised_r. eexists _, _. left. reflexivity.
      - exists h, s. auto. }
  cbn beta iota in E. set (D1 := D0 ++ [Called (OpenLog (log_pathname g)) (Good tt)]) in E.
  assert (N1 : forall c x, ~ In (Called c (Raise x)) D1).
  { intros c x I. apply in_app_iff in I. destruct I as [I|[I|[]]]; [exact (N0 _ _ I)|]. apply (f_equal raised_by) in I. discriminate. }
  assert (I1 : In (Called LoadRingmaster (Good (record, logs, err, t))) D1) by (apply in_app_iff; auto).
  destruct (run_game_spec g seed args D1) as (d1 & o1 & E1 & PR1 & PA1 & G1 & C1).
  match type of E with ?m _ = _ => change (m D1 = (d, o)) in E end. unfold bind in E. rewrite E1 in E. cbn [r_tuner r_files r_record r_gtp_logs r_stderr_to_log g] in G1, C1.
  assert (PD : printed (D1 ++ d1) = []) by (rewrite printed_app, PR1; reflexivity).
  assert (GD : games (D1 ++ d1) = games d1) by (rewrite games_app; reflexivity).
  destruct o1 as [m|e].
  - (* an answer *)
    unfold say in E. apply pair_equal_spec in E. destruct E as [<- <-]. clear FAIL EARLY.
    exists (((D1 ++ d1) ++ [Said m]) ++ []), 0.
    split.
    { unfold main_command, status, catch, bind. rewrite E0. cbv beta iota delta [ret negb andb Z.eqb]. rewrite app_nil_r. reflexivity. }
    rewrite app_nil_r, <- app_assoc.
    split.
    { intros c x I. apply in_app_iff in I. destruct I as [I|I]; [destruct (N1 _ _ I)|]. apply in_app_iff in I. destruct I as [I|[I|[]]]; [destruct (PA1 _ _ I) as (? & X & _); discriminate|discriminate]. }
    left. split; [reflexivity|]. destruct C1 as (j & r & GJ & IR & V). destruct G1 as [G1|(j' & G1 & CG)]; [congruence|]. assert (j' = j) by congruence. subst j'.
    exists record, logs, err, t, files, proc, seed, more, args, j, r, m. split; [reflexivity|]. split; [apply pair_up_spec; exact EP|]. split; [reflexivity|].
    split; [apply in_app_iff; auto|]. split; [rewrite !games_app, GJ; reflexivity|]. split; [apply candidate_more; exact CG|]. split; [apply in_app_iff; right; apply in_app_iff; auto|]. split; [exact V|].
    rewrite !printed_app, PR1. reflexivity.
  - (* an exception *)
    apply pair_equal_spec in E. destruct E as [<- <-]. destruct (FAIL _ e eq_refl) as (h & s & H1 & H2 & H3).
    + intros c x I. apply in_app_iff in I. destruct I as [I|I]; [destruct (N1 _ _ I)|]. destruct (PA1 _ _ I) as (e' & X & Y). exists e'. split; [congruence|exact Y].
    + exact PD.
    + destruct G1 as [G1|(j & G1 & CG)]; [left; congruence|right]. exists record, logs, err, t, files, proc, seed, more, args, j. split; [reflexivity|]. split; [apply pair_up_spec; exact EP|]. split; [reflexivity|]. split; [apply in_app_iff; auto|].
      split; [congruence|]. rewrite <- (app_nil_r d1). apply candidate_more. exact CG.
    + destruct C1 as [R|[X N]]; [left; apply raised_r; exact R|right; split; [exact X|]]. right. right. right. right. exists record, logs, err, t. split; [apply in_app_iff; auto|].
      destruct N as [N|[(vs & N)|(j & r & N & N')]]; [left; exists args; split; [apply pair_up_spec; exact EP|exact N]|right; left; exists vs; apply in_app_iff; auto|].
      right. right. exists j, r. split; [apply in_app_iff; auto|exact N'].
    + exists h, s. auto.
Qed.

(** *** setup *)
Lemma ensure_dir_eq p h : ensure_dir w p h =
  match w (DirExists p) h with
  | Good true => (h ++ [Called (DirExists p) (Good true)], Good tt)
  | Good false =>
      match w (MakeDir p) (h ++ [Called (DirExists p) (Good false)]) with
      | Good _ => (h ++ [Called (DirExists p) (Good false); Called (MakeDir p) (Good tt)], Good tt)
      | Raise e => (h ++ [Called (DirExists p) (Good false); Called (MakeDir p) (Raise e)], Raise (match e with XEnvironment _ => XName | _ => e end))
      end
  | Raise e => (h ++ [Called (DirExists p) (Raise e)], Raise (match e with XEnvironment _ => XName | _ => e end))
  end.
Proof.
  unfold ensure_dir, catch. rewrite bind_ask. match goal with |- (let '(h', r) := match ?x with _ => _ end in _) = _ => destruct x as [[|]|e] end.
  - reflexivity.
  - unfold ask. cbn [answer]. match goal with |- context [w (MakeDir p) ?hh] => generalize (w (MakeDir p) hh) end. intros [[]|e]; cbv beta iota; rewrite <- app_assoc; [reflexivity|]. destruct e; reflexivity.
  - destruct e; reflexivity.
Qed.
Definition dir_made (p : bytes) (d : history) : Prop := In (Called (DirExists p) (Good true)) d \/ In (Called (MakeDir p) (Good tt)) d.
Definition of_dir (p : bytes) (c : call) : Prop := c = DirExists p \/ c = MakeDir p.
Lemma ensure_dir_spec p h : exists d o, ensure_dir w p h = (h ++ d, o) /\ printed d = [] /\ games d = [] /\ passes T1 d o /\
  match o with Good _ => dir_made p d | Raise e => raised d end.
Proof.
  rewrite ensure_dir_eq. destruct (w (DirExists p) h) as [[|]|e].
  - exists [Called (DirExists p) (Good true)], (Good tt). split; [reflexivity|]. split; [reflexivity|]. split; [reflexivity|].
    split; [intros c x I; apply called_inv in I; destruct I as [_ I]; discriminate|left; left; reflexivity].
  - match goal with |- context [w (MakeDir p) ?hh] => destruct (w (MakeDir p) hh) as [[]|e] end.
    + exists [Called (DirExists p) (Good false); Called (MakeDir p) (Good tt)], (Good tt). split; [reflexivity|]. split; [reflexivity|]. split; [reflexivity|].
      split; [intros c x [I|[I|[]]]; apply (f_equal raised_by) in I; discriminate|right; right; left; reflexivity].
    + eexists [Called (DirExists p) (Good false); Called (MakeDir p) (Raise e)], _. split; [reflexivity|]. split; [reflexivity|]. split; [reflexivity|].
      split; [intros c x [I|I]; [apply (f_equal raised_by) in I; discriminate|]; apply called_inv in I; destruct I as [-> I]; injection I as ->; eexists; split; [reflexivity|]; destruct x; reflexivity|].
      eexists _, _. right. left. reflexivity.
  - eexists [Called (DirExists p) (Raise e)], _. split; [reflexivity|]. split; [reflexivity|]. split; [reflexivity|].
    split; [intros c x I; apply called_inv in I; destruct I as [-> I]; injection I as ->; eexists; split; [reflexivity|]; destruct x; reflexivity|].
    eexists _, _. left. reflexivity.
Qed.
Lemma ensure_if_spec (b : bool) p h : exists d o, (if b then ensure_dir w p else ret tt) h = (h ++ d, o) /\ printed d = [] /\ games d = [] /\ passes T1 d o /\
  match o with Good _ => b = true -> dir_made p d | Raise e => raised d end.
Proof.
  destruct b.
  - destruct (ensure_dir_spec p h) as (d & o & E & A & B & C & D). exists d, o. rewrite E. split; [reflexivity|]. split; [exact A|]. split; [exact B|]. split; [exact C|]. destruct o; auto.
  - exists [], (Good tt). rewrite app_nil_r. split; [reflexivity|]. split; [reflexivity|]. split; [reflexivity|]. split; [intros c x []|discriminate].
Qed.

Lemma setup_command control : exists h s,
  main_command pcode read_float show_float percent_f percent_d w traceback script control Setup [] [] = (h, Good s) /\
  printed h = [] /\ games h = [] /\ (forall c e, In (Called c (Raise e)) h -> s = expected c e) /\
  ((s = 0 /\ exists record logs err t files, competition_files control = Ok files /\ In (Called LoadRingmaster (Good (record, logs, err, t))) h /\
      In (Called (WriteClop (join_path (p_base files) (p_code files ++ str ".clop"))
                    (join nl (clop_lines percent_f percent_d script (mkRing files record logs err t) (snd (os_split control))))) (Good tt)) h /\
      (record = true -> dir_made (p_sgf_dir files) h) /\ (logs = true -> dir_made (p_gtplog_dir files) h)) \/
   ((s = 1 \/ s = 3 \/ s = 4) /\ (raised h \/ (s = 1 /\ (In (Called ControlExists (Good false)) h \/ In (snd (splitext (snd (os_split control)))) forbidden))))).
Proof.
  assert (FAIL : forall d e, perform pcode read_float show_float percent_f percent_d w traceback script control Setup [] [] = (d, Raise e) ->
    passes T1 d (@Raise unit e) -> printed d = [] -> games d = [] ->
    (raised d \/ (cls e = 1 /\ (In (Called ControlExists (Good false)) d \/ In (snd (splitext (snd (os_split control)))) forbidden))) ->
    exists h s, main_command pcode read_float show_float percent_f percent_d w traceback script control Setup [] [] = (h, Good s) /\
      printed h = [] /\ games h = [] /\ (forall c e, In (Called c (Raise e)) h -> s = expected c e) /\
      ((s = 1 \/ s = 3 \/ s = 4) /\ (raised h \/ (s = 1 /\ (In (Called ControlExists (Good false)) h \/ In (snd (splitext (snd (os_split control)))) forbidden))))).
  { intros d e E PA PR GA C.
    assert (K : exists extra, main_command pcode read_float show_float percent_f percent_d w traceback script control Setup [] [] = (d ++ extra, Good (cls e)) /\
      printed extra = [] /\ games extra = [] /\ (forall c x, ~ In (Called c (Raise x)) extra)).
    { unfold main_command, status, catch, bind. rewrite E.
      destruct e; cbv beta iota delta [complain ret say cls negb andb Z.eqb]; rewrite <- ?app_assoc;
        first [eexists; split; [reflexivity|]; split; [reflexivity|]; split; [reflexivity|]; intros c x I; cbn in I; repeat (destruct I as [I|I]; [apply (f_equal raised_by) in I; discriminate|]); exact I
              |exists []; rewrite app_nil_r; split; [reflexivity|]; split; [reflexivity|]; split; [reflexivity|]; intros c x []]. }
    destruct K as (extra & E2 & PX & GX & NX). exists (d ++ extra), (cls e). split; [exact E2|]. split; [rewrite printed_app, PR, PX; reflexivity|]. split; [rewrite games_app, GA, GX; reflexivity|].
    split; [|split].
    - intros c x I. apply in_app_iff in I. destruct I as [I|I]; [|destruct (NX _ _ I)]. destruct (PA c x I) as (e' & X & Y). injection X as <-. exact Y.
    - destruct e; cbn; auto.
    - destruct C as [R|[X [N|N]]]; [left; apply raised_l; exact R|right; split; [exact X|left; apply in_app_iff; auto]|right; auto]. }
  destruct (perform pcode read_float show_float percent_f percent_d w traceback script control Setup [] []) as [d o] eqn:E0.
  pose proof E0 as E. unfold perform in E. rewrite bind_ask in E. cbn [app] in E.
  destruct (w ControlExists []) as [ex|e].
  2:{ apply pair_equal_spec in E. destruct E as [<- <-]. destruct (FAIL _ e eq_refl) as (h & s & H1 & H2 & H3 & H4 & H5).
      - intros c x I. apply called_inv in I. destruct I as [-> X]. injection X as ->. exists x. split; [reflexivity|]. destruct x; reflexivity.
      - reflexivity.
      - reflexivity.
      - left. eexists _, _. left. reflexivity.
      - exists h, s. auto 8. }
  destruct ex; cbn [negb] in E.
  2:{ apply pair_equal_spec in E. destruct E as [<- <-]. destruct (FAIL _ _ eq_refl) as (h & s & H1 & H2 & H3 & H4 & H5).
      - intros c x I. apply called_inv in I. destruct I as [-> X]. discriminate.
      - reflexivity.
      - reflexivity.
      - right. split; [reflexivity|]. left. left. reflexivity.
      - exists h, s. auto 8. }
  destruct (competition_files control) as [files|x] eqn:EF.
  2:{ apply pair_equal_spec in E. destruct E as [<- <-]. destruct (FAIL _ _ eq_refl) as (h & s & H1 & H2 & H3 & H4 & H5).
      - intros c y I. apply called_inv in I. destruct I as [-> X]. discriminate.
      - reflexivity.
      - reflexivity.
      - right. split; [reflexivity|]. right. unfold competition_files in EF. destruct (os_split control) as [b name]. destruct (splitext name) as [code ext] eqn:ES.
        destruct (existsb (bytes_eqb ext) forbidden) eqn:EX; [|discriminate]. apply existsb_in in EX. cbn [snd]. rewrite ES. exact EX.
      - exists h, s. auto 8. }
  rewrite bind_ask in E.
  match type of E with (match ?x with _ => _ end = _) => destruct x as [[[[record logs] err] t]|e] end.
  2:{ apply pair_equal_spec in E. destruct E as [<- <-]. destruct (FAIL _ e eq_refl) as (h & s & H1 & H2 & H3 & H4 & H5).
      - intros c x [I|I]; [apply (f_equal raised_by) in I; discriminate|]. apply called_inv in I. destruct I as [-> X]. injection X as ->. exists x. split; [reflexivity|]. destruct x; reflexivity.
      - reflexivity.
      - reflexivity.
      - left. eexists _, _. right. left. reflexivity.
      - exists h, s. auto 8. }
  set (D0 := [@Called F P CFG ControlExists (Good true); Called LoadRingmaster (Good (record, logs, err, t))]).
  match type of E with ?m _ = _ => change (m D0 = (d, o)) in E end.
  assert (N0 : forall c x, ~ In (Called c (Raise x)) D0).
  { intros c x [I|[I|[]]]; apply (f_equal raised_by) in I; discriminate. }
  set (g := mkRing files record logs err t) in E. unfold do_setup in E. rewrite bind_ask in E.
  match type of E with context [WriteClop ?a ?b] => set (c1 := @WriteClop F P CFG a b) in E end.
  match type of E with (match ?x with _ => _ end = _) => destruct x as [[]|e] end.
  2:{ apply pair_equal_spec in E. destruct E as [<- <-]. destruct (FAIL _ e eq_refl) as (h & s & H1 & H2 & H3 & H4 & H5).
      - intros c x I. apply in_app_iff in I. destruct I as [I|I]; [destruct (N0 _ _ I)|]. apply called_inv in I. destruct I as [-> X]. injection X as ->. exists x. split; [reflexivity|]. destruct x; reflexivity.
      - reflexivity.
      - reflexivity.
      - left. apply raised_r. eexists _, _. left. reflexivity.
      - exists h, s. auto 8. }
  set (D1 := D0 ++ [Called c1 (Good tt)]) in E.
  assert (N1 : forall c x, ~ In (Called c (Raise x)) D1).
  { intros c x I. apply in_app_iff in I. destruct I as [I|[I|[]]]; [exact (N0 _ _ I)|]. apply (f_equal raised_by) in I. discriminate. }
  match type of E with ?m _ = _ => change (m D1 = (d, o)) in E end. unfold ensure_output_directories in E. unfold bind in E.
  destruct (ensure_if_spec (r_record g) (p_sgf_dir (r_files g)) D1) as (d1 & o1 & E1 & P1 & G1 & A1 & M1). rewrite E1 in E. destruct o1 as [[]|e].
  2:{ apply pair_equal_spec in E. destruct E as [<- <-]. destruct (FAIL _ e eq_refl) as (h & s & H1 & H2 & H3 & H4 & H5).
      - intros c x I. apply in_app_iff in I. destruct I as [I|I]; [destruct (N1 _ _ I)|]. exact (A1 _ _ I).
      - rewrite printed_app, P1. reflexivity.
      - rewrite games_app, G1. reflexivity.
      - left. apply raised_r. exact M1.
      - exists h, s. auto 8. }
  destruct (ensure_if_spec (r_gtp_logs g) (p_gtplog_dir (r_files g)) (D1 ++ d1)) as (d2 & o2 & E2 & P2 & G2 & A2 & M2). rewrite E2 in E. 
  assert (N2 : forall c x, ~ In (Called c (Raise x)) (D1 ++ d1)).
  { intros c x I. apply in_app_iff in I. destruct I as [I|I]; [exact (N1 _ _ I)|]. destruct (A1 _ _ I) as (? & X & _). discriminate. }
  apply pair_equal_spec in E. destruct E as [<- <-]. destruct o2 as [[]|e].
  - exists ((D1 ++ d1) ++ d2), 0. split.
    { unfold main_command, status, catch, bind. rewrite E0. reflexivity. }
    split; [rewrite !printed_app, P1, P2; reflexivity|]. split; [rewrite !games_app, G1, G2; reflexivity|].
    split; [intros c x I; apply in_app_iff in I; destruct I as [I|I]; [destruct (N2 _ _ I)|destruct (A2 _ _ I) as (? & X & _); discriminate]|].
    left. split; [reflexivity|]. exists record, logs, err, t, files. split; [reflexivity|].
    split; [do 2 (apply in_app_iff; left); apply in_app_iff; left; right; left; reflexivity|].
    split; [do 2 (apply in_app_iff; left); apply in_app_iff; right; left; reflexivity|].
    assert (LIFT : forall p d a b, dir_made p d -> dir_made p (a ++ d ++ b)).
    { intros p x a b [I|I]; [left|right]; apply in_app_iff; right; apply in_app_iff; auto. }
    split; intros X; [rewrite <- app_assoc; apply LIFT; apply M1; exact X|rewrite <- (app_nil_r d2); apply LIFT; apply M2; exact X].
  - destruct (FAIL _ e eq_refl) as (h & s & H1 & H2 & H3 & H4 & H5).
    + intros c x I. apply in_app_iff in I. destruct I as [I|I]; [destruct (N2 _ _ I)|]. exact (A2 _ _ I).
    + rewrite !printed_app, P1, P2. reflexivity.
    + rewrite !games_app, G1, G2. reflexivity.
    + left. apply raised_r. exact M2.
    + exists h, s. auto 8.
Qed.
End Run.
