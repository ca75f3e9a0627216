(** Proofs about the tournament results API and find_forfeits.py. *)
From Verif Require Import Base Bytes PyStr Dict CommonModel TournModel TournSpec TournProofs ReportModel RingFilesModel CliModel CliSpec CliProofs
  ForfeitModel ForfeitSpec.
Open Scope Z_scope.

(** ** The API *)
Lemma matchups_dict ms : forall acc id, NoDup (map m_id ms) ->
  dget id (fold_left (fun acc m => dset (m_id m) m acc) ms acc) =
  match List.find (fun m => bytes_eqb (m_id m) id) ms with Some m => Some m | None => dget id acc end.
Proof.
  induction ms as [|m ms IH]; intros acc id ND; cbn [fold_left List.find map] in *; [reflexivity|].
  inversion ND as [|? ? N ND']; subst. rewrite (IH _ _ ND').
  destruct (bytes_eqb_spec (m_id m) id) as [E|E].
  - destruct (List.find _ ms) as [m'|] eqn:F.
    + apply find_some in F. destruct F as [F1 F2]. destruct (bytes_eqb_spec (m_id m') id) as [F3|]; [|discriminate].
      exfalso. apply N. rewrite E, <- F3. apply in_map. exact F1.
    + subst id. rewrite dget_dset_same. reflexivity.
  - destruct (List.find _ ms); [reflexivity|]. rewrite dget_dset_other; [reflexivity|congruence].
Qed.

Lemma get_matchup_spec ms d id m : NoDup (map m_id ms) ->
  (get_matchup (make_tresults ms d) id = Ok m <-> In m ms /\ m_id m = id).
Proof.
  intros ND. unfold get_matchup, make_tresults. cbn [tr_matchups]. rewrite (matchups_dict ms [] id ND). cbn [dget].
  destruct (List.find _ ms) as [m'|] eqn:F.
  - apply find_some in F. destruct F as [F1 F2]. destruct (bytes_eqb_spec (m_id m') id) as [F3|]; [|discriminate].
    split; [intros E; injection E as <-; auto|]. intros [I E]. f_equal.
    revert ND F1 I E F3. clear. induction ms as [|x ms IH]; [intros _ []|]. intros ND F1 I E F3. cbn [map] in ND.
    inversion ND as [|? ? N ND']; subst. destruct F1 as [->|F1], I as [->|I]; auto.
    + exfalso. apply N. rewrite F3. apply in_map. exact I.
    + exfalso. apply N. rewrite <- F3. apply in_map. exact F1.
  - split; [discriminate|]. intros [I E]. pose proof (find_none _ _ F m I) as X. cbn beta in X. rewrite E, bytes_eqb_refl in X. discriminate.
Qed.

Lemma get_matchup_none ms d id : NoDup (map m_id ms) -> ~ In id (map m_id ms) -> get_matchup (make_tresults ms d) id = Err KeyError.
Proof.
  intros ND N. unfold get_matchup, make_tresults. cbn [tr_matchups]. rewrite (matchups_dict ms [] id ND). cbn [dget].
  destruct (List.find _ ms) as [m'|] eqn:F; [|reflexivity].
  apply find_some in F. destruct F as [F1 F2]. destruct (bytes_eqb_spec (m_id m') id) as [F3|]; [|discriminate].
  exfalso. apply N. rewrite <- F3. apply in_map. exact F1.
Qed.

(** [x] answers as the original object does: it may have more (empty) entries. *)
Definition same_answers (x : tresults) (ms : list matchup) (done : list (game * game_result)) : Prop :=
  tr_list x = ms /\ tr_matchups x = tr_matchups (make_tresults ms []) /\
  forall id, lookup (tr_results x) id = results_of id done.

Lemma read_results_spec x ms done id : same_answers x ms done ->
  snd (read_results x id) = results_of id done /\ same_answers (fst (read_results x id)) ms done.
Proof.
  intros (A & B & C). unfold read_results. pose proof (C id) as L. unfold lookup in L. destruct (dget id (tr_results x)) as [l|] eqn:D.
  - cbn [fst snd]. split; [exact L|]. split; [|split]; assumption.
  - cbn [fst snd]. split; [exact L|]. split; [|split]; cbn [tr_list tr_matchups tr_results]; try assumption.
    intros id'. rewrite lookup_dset. destruct (bytes_eqb_spec id' id) as [->|]; [exact L|apply C].
Qed.

Lemma same_get_matchup x ms done id : same_answers x ms done -> get_matchup x id = get_matchup (make_tresults ms []) id.
Proof. intros (A & B & C). unfold get_matchup. rewrite B. reflexivity. Qed.

(** ** Where the recorded results come from *)
Definition done_ok (P : game_result -> Prop) (y : asys) : Prop :=
  match fst y with Some a => forall g r, In (g, r) (a_done a) -> P r | None => True end /\
  match snd y with Some s => forall g r, In (g, r) (sv_done s) -> P r | None => True end.
Lemma atrun_done P x es os y : atrun x es os y -> Forall (fun e => match e with TResult r => P (rs_result r) | _ => True end) es ->
  done_ok P x -> done_ok P y.
Proof.
  induction 1 as [|x e a s1 es os y ST R IH]; intros F D; [exact D|]. inversion F as [|? ? F1 F2]; subst. apply IH; [exact F2|].
  destruct ST; destruct D as [D1 D2]; cbn [fst snd] in *; split; cbn [fst snd a_done sv_done]; auto.
  - intros g r' I. apply in_app_or in I. destruct I as [I|[I|[]]]; [exact (D1 g r' I)|]. injection I as <- <-. exact F1.
  - intros g r' [].
Qed.

(** ** The script *)
Section Script.
Variable cf : tconfig.
Variable given : bytes -> option bytes.
Variable w : @world tstatus.
Variable decodes : bytes -> bool.
Variable comp_vn : Z.
Variable brief traceback : exn -> bytes.

Lemma show_forfeits_said m rs : forall h, (forall r, In r rs -> proper_forfeit r) ->
  exists ls, show_forfeits given m rs h = (h ++ map Said ls, Good tt) /\
    Forall2 (forfeit_line given) (map (pair m) (filter gr_forfeit rs)) ls.
Proof.
  induction rs as [|r rs IH]; intros h P; cbn [show_forfeits filter map].
  - exists []. cbn [map]. rewrite app_nil_r. split; [reflexivity|constructor].
  - unfold bind, when. destruct (gr_forfeit r) eqn:G.
    + destruct (P r (or_introl eq_refl) G) as [(b & w' & c & R) (id & ID)].
      unfold show_result, say. destruct (IH (h ++ [Said (d_name (describe_matchup (given (m_id m)) m) ++ str ": " ++
         percent_s (losing_player r) ++ str " forfeited game " ++ sgf_filename (gr_id r))])) as (ls & E & F).
      { intros r' I. apply P. right. exact I. }
      eexists (_ :: ls). rewrite E, <- app_assoc. cbn [app map]. split; [reflexivity|]. constructor; [|exact F].
      pose proof R as (RB & RW & RC & _). unfold losing_player. rewrite RC, RB, RW, ID.
      replace (d_name (describe_matchup (given (m_id m)) m)) with (matchup_name given m) by reflexivity.
      replace (percent_s (player_of b w' (Some (opponent_of c)))) with (match c with Black => w' | White => b end) by (destruct c; reflexivity).
      unfold sgf_filename, percent_s. apply fl; assumption.
    + unfold ret at 1. destruct (IH h) as (ls & E & F); [intros r' I; apply P; right; exact I|]. exists ls. split; assumption.
Qed.

Lemma each_matchup_said ms done ids : forall x h,
  NoDup (map m_id ms) -> (forall g r, In (g, r) done -> proper_forfeit r) -> same_answers x ms done ->
  forall l, incl l ms -> ids = map m_id l ->
  exists ls, each_matchup given x ids h = (h ++ map Said ls, Good tt) /\ Forall2 (forfeit_line given) (forfeits l done) ls.
Proof.
  induction ids as [|id ids IH]; intros x h ND P SA l IN E.
  - destruct l; [|discriminate]. exists []. cbn [each_matchup map]. rewrite app_nil_r. split; [reflexivity|constructor].
  - destruct l as [|m l]; [discriminate|]. cbn [map] in E. injection E as -> ->. cbn [each_matchup].
    rewrite (same_get_matchup x ms done (m_id m) SA).
    rewrite (proj2 (get_matchup_spec ms [] (m_id m) m ND) (conj (IN m (or_introl eq_refl)) eq_refl)).
    unfold results_for. destruct (read_results_spec x ms done (m_id m) SA) as [R SA'].
    destruct (read_results x (m_id m)) as [x' rs]. cbn [fst snd] in R, SA'. subst rs. unfold bind.
    destruct (show_forfeits_said m (results_of (m_id m) done) h) as (l1 & E1 & F1).
    { intros r I. unfold results_of in I. apply in_map_iff in I. destruct I as ([g r'] & <- & I). apply filter_In in I. exact (P g r' (proj1 I)). }
    rewrite E1. destruct (IH x' (h ++ map Said l1) ND P SA' l (fun a I => IN a (or_intror I)) eq_refl) as (l2 & E2 & F2).
    rewrite E2. exists (l1 ++ l2). rewrite map_app, app_assoc. split; [reflexivity|]. cbn [forfeits flat_map]. apply Forall2_app; assumption.
Qed.

Lemma make_ringmaster_good control : control_reads w decodes control ->
  exists h skip, make_ringmaster w decodes brief traceback control [] = (h, Good skip) /\ said h = [] /\ complaints h = [].
Proof.
  intros [X C]. destruct (C []) as (text & type & cls & skip & R & PT & GC & DE & IN & IR & IC).
  eexists. exists skip. unfold make_ringmaster. rewrite X. unfold catch, load_control_file, bind, catch, ask. rewrite R, PT, GC, DE.
  cbn [negb]. rewrite IN. rewrite bytes_eqb_refl. unfold wrap_init, catch, ask. rewrite IR, IC. unfold ret.
  split; [reflexivity|]. split; reflexivity.
Qed.

Lemma last_status_app h st v r : forall found, last_status (h ++ [Called (SetStatus v st) r]) found = Some st.
Proof. induction h as [|e h IH]; intros found; cbn [app last_status]; [reflexivity|]. destruct e as [c o| |]; [destruct c|..]; apply IH. Qed.

Lemma main_spec control st done listed comps : control_reads w decodes control -> status_reads w comp_vn st -> loads w cf ->
  config_ok cf -> SInv st (mkSv done listed comps) -> (forall g r, In (g, r) done -> proper_forfeit r) ->
  (fits cf (mkSv done listed comps) ->
     exists h, main (Some cf) given w decodes comp_vn brief traceback [control] = (h, 0) /\
       Forall2 (forfeit_line given) (forfeits (cf_matchups cf) done) (said h) /\ complaints h = []) /\
  (~ fits cf (mkSv done listed comps) ->
     exists h, main (Some cf) given w decodes comp_vn brief traceback [control] = (h, 1) /\ said h = [] /\ complaints h <> []).
Proof.
  intros C SR LO CO SI P. destruct (make_ringmaster_good control C) as (h0 & skip & MR & S0 & C0).
  unfold main, find_forfeits, load_status, read_status, bind, catch, ask. rewrite MR.
  destruct (SR h0) as (void & RS). rewrite RS. rewrite Z.eqb_refl. cbn [negb sd_vn sd_void sd_comp]. rewrite Z.eqb_refl. cbn [negb].
  unfold ret. cbn [fst snd].
  match goal with |- context[w (SetStatus void st) ?hh] => pose proof (LO void st hh) as L end.
  destruct (set_status_spec cf st _ CO SI) as [(FI & t & ST & I)|(NF & e & ST)].
  - rewrite ST in L. rewrite L. split; [intros _|intros NF; contradiction].
    unfold get_tournament_results. rewrite last_status_app, ST. unfold ret. cbn [fst snd].
    destruct I as (CE & _ & (_ & _ & LK) & _). cbn [a_config a_done a_listed] in CE, LK.
    assert (same_answers (tournament_results t) (cf_matchups cf) done) as SA.
    { unfold tournament_results. rewrite CE. split; [reflexivity|]. split; [reflexivity|]. exact LK. }
    assert (get_matchup_ids (tournament_results t) = map m_id (cf_matchups cf)) as IDS.
    { unfold get_matchup_ids, tournament_results. rewrite CE. reflexivity. }
    rewrite IDS. edestruct (each_matchup_said (cf_matchups cf) done _ (tournament_results t)
      ((h0 ++ [Called ReadStatus (Good (Pair status_format_version (mkStatus (Some comp_vn) (Some void) (Some st))))]) ++ [Called (SetStatus void st) (Good tt)])
      (proj1 CO) P SA (cf_matchups cf) (fun a I => I) eq_refl) as (ls & E & F).
    cbn [answer] in *. rewrite E. eexists. split; [reflexivity|]. rewrite !said_app, !complaints_app, S0, C0.
    split.
    + replace (said (map Said ls)) with ls; [exact F|]. symmetry. exact (proj1 (proj2 (map_said (ST:=tstatus) ls))).
    + cbn [app complaints flat_map]. exact (proj1 (proj2 (proj2 (map_said (ST:=tstatus) ls)))).
  - rewrite ST in L. destruct L as (x & L). rewrite L. split; [intros FI; contradiction|intros _].
    destruct x; cbn [fst snd]; unfold raise; (eexists; split; [reflexivity|]; rewrite !said_app, !complaints_app, S0, C0; split; [reflexivity|cbn; discriminate]).
Qed.

(** ** Any outside world *)
Notation opening4 := [ReadControl; Interpret; InitRingmaster; InitCompetition].
Notation dummy := (mkTS [] (SchedModel.gsched_getstate SchedModel.new_gsched) [] [] None).

Lemma show_forfeits_any m rs : forall h, exists ls, show_forfeits given m rs h = (h ++ map Said ls, Good tt).
Proof.
  induction rs as [|r rs IH]; intros h; cbn [show_forfeits]; [exists []; cbn [map]; rewrite app_nil_r; reflexivity|].
  unfold bind, when. destruct (gr_forfeit r).
  - unfold show_result, say. match goal with |- context[show_forfeits given m rs ?hh] => destruct (IH hh) as (ls & E) end.
    rewrite E, <- app_assoc. cbn [app]. eexists (_ :: ls). cbn [map]. reflexivity.
  - unfold ret at 1. apply IH.
Qed.
Lemma each_matchup_any ids : forall x h, exists ls r, each_matchup given x ids h = (h ++ map Said ls, r).
Proof.
  induction ids as [|id ids IH]; intros x h; cbn [each_matchup]; [exists [], (Good tt); cbn [map]; rewrite app_nil_r; reflexivity|].
  destruct (get_matchup x id) as [m|e]; [|exists [], (Raise (XKey id)); cbn [map]; rewrite app_nil_r; reflexivity].
  destruct (results_for x id) as [x' rs]. unfold bind. destruct (show_forfeits_any m rs h) as (l1 & ->).
  destruct (IH x' (h ++ map Said l1)) as (l2 & r & ->). exists (l1 ++ l2), r. rewrite map_app, app_assoc. reflexivity.
Qed.

Lemma prefix_of {A} (l r m : list A) : l ++ r = m -> prefix l m.
Proof. intros <-. exists r. reflexivity. Qed.

Lemma make_ringmaster_any control : exists h r, make_ringmaster w decodes brief traceback control [] = (h, r) /\ said h = [] /\ complaints h = [] /\
  (match r with Good _ => calls h = opening4 | Raise _ => prefix (calls h) opening4 end).
Proof.
  unfold make_ringmaster. destruct (existsb _ forbidden).
  { eexists _, _. split; [reflexivity|]. repeat split. exists opening4. reflexivity. }
  unfold catch at 1, load_control_file. unfold bind, catch, ask.
  destruct (w ReadControl []) as [text|e]; cbn [app]; [|destruct e; (eexists _, _; split; [reflexivity|]; repeat split; eapply prefix_of; reflexivity)].
  destruct (parse_competition_type text) as [t|]; [|eexists _, _; split; [reflexivity|]; repeat split; eapply prefix_of; reflexivity].
  destruct (get_competition_class t); [|eexists _, _; split; [reflexivity|]; repeat split; eapply prefix_of; reflexivity].
  destruct (decodes text); cbn [negb]; [|eexists _, _; split; [reflexivity|]; repeat split; eapply prefix_of; reflexivity].
  match goal with |- context[w Interpret ?hh] => destruct (w Interpret hh) as [ct|e] end;
    [|destruct e; (eexists _, _; split; [reflexivity|]; repeat split; eapply prefix_of; reflexivity)].
  destruct (match ct with Some u => bytes_eqb u t | None => false end);
    [|eexists _, _; split; [reflexivity|]; repeat split; eapply prefix_of; reflexivity].
  unfold wrap_init, catch, ask.
  match goal with |- context[w InitRingmaster ?hh] => destruct (w InitRingmaster hh) as [skip|e] end;
    [|destruct e; (eexists _, _; split; [reflexivity|]; repeat split; eapply prefix_of; reflexivity)].
  match goal with |- context[w InitCompetition ?hh] => destruct (w InitCompetition hh) as [[]|e] end;
    [|destruct e; (eexists _, _; split; [reflexivity|]; repeat split; eapply prefix_of; reflexivity)].
  eexists _, _. split; [reflexivity|]. repeat split.
Qed.

Lemma load_status_any h : exists evs r, load_status w comp_vn traceback h = (h ++ evs, r) /\ said evs = [] /\ complaints evs = [] /\
  (match r with
   | Good _ => exists v st, calls evs = [ReadStatus; SetStatus v st]
   | Raise _ => exists v st, prefix (calls evs) [ReadStatus; SetStatus v st]
   end).
Proof.
  unfold load_status, bind at 1, catch at 1. unfold read_status, bind at 1, ask at 1.
  set (p := w ReadStatus h).
  assert (forall (e : CliModel.exn) (u : outcome unit), exists evs r, (h ++ [Called ReadStatus p], Raise (A:=unit) e) = (h ++ evs, r) /\ said evs = [] /\ complaints evs = [] /\
    match r with Good _ => exists v (st : tstatus), calls evs = [ReadStatus; SetStatus v st] | Raise _ => exists v st, prefix (calls evs) [ReadStatus; SetStatus v st] end) as FAIL.
  { intros e _. exists [Called ReadStatus p], (Raise e). repeat split. exists 0, dummy. exists [SetStatus 0 dummy]. reflexivity. }
  destruct p as [[v s|]|e] eqn:EP.
  - destruct (negb (v =? status_format_version)); [exact (FAIL _ (Good tt))|].
    destruct (sd_vn s) as [n|]; [|exact (FAIL _ (Good tt))]. destruct (negb (n =? comp_vn)); [exact (FAIL _ (Good tt))|].
    destruct (sd_void s) as [void|]; [|exact (FAIL _ (Good tt))]. destruct (sd_comp s) as [st|]; [|exact (FAIL _ (Good tt))].
    unfold ret. cbn [fst snd]. unfold catch, ask.
    match goal with |- context[w (SetStatus void st) ?hh] => destruct (w (SetStatus void st) hh) as [[]|e] eqn:EW end.
    + rewrite <- app_assoc. eexists _, _. split; [reflexivity|]. repeat split. exists void, st. reflexivity.
    + destruct e; rewrite <- app_assoc; (eexists _, _; split; [reflexivity|]; repeat split; exists void, st; exists []; reflexivity).
  - exact (FAIL _ (Good tt)).
  - destruct e; exact (FAIL _ (Good tt)).
Qed.

Lemma get_results_any competition h : exists r, get_tournament_results competition h = (h, r).
Proof.
  unfold get_tournament_results. destruct competition as [c|]; [|eexists; reflexivity]. destruct (last_status h None); [|eexists; reflexivity].
  destruct (set_status c _); eexists; reflexivity.
Qed.

Lemma prefix_app_l {A} (a b c : list A) : prefix b c -> prefix (a ++ b) (a ++ c).
Proof. intros (r & ->). exists r. rewrite app_assoc. reflexivity. Qed.
Lemma prefix_short {A} (a b c : list A) : prefix a b -> prefix a (b ++ c).
Proof. intros (r & ->). exists (r ++ c). rewrite app_assoc. reflexivity. Qed.

Lemma run_any competition control : exists h r, bind (make_ringmaster w decodes brief traceback control) (fun _ => find_forfeits competition given w comp_vn traceback) [] = (h, r) /\
  complaints h = [] /\
  (exists v st, prefix (calls h) (opening4 ++ [ReadStatus; SetStatus v st])) /\
  (match r with Good _ => exists v st, calls h = opening4 ++ [ReadStatus; SetStatus v st] | Raise _ => True end) /\
  (said h <> [] -> exists v st, calls h = opening4 ++ [ReadStatus; SetStatus v st]).
Proof.
  destruct (make_ringmaster_any control) as (h0 & r0 & E0 & S0 & C0 & K0). unfold bind at 1. rewrite E0.
  destruct r0 as [skip|e].
  2:{ exists h0, (Raise e). split; [reflexivity|]. split; [exact C0|]. split; [|split; [exact Logic.I|congruence]].
      exists 0, dummy. apply prefix_short. exact K0. }
  unfold find_forfeits, bind at 1. destruct (load_status_any h0) as (evs & r1 & E1 & S1 & C1 & K1). rewrite E1.
  destruct r1 as [[]|e].
  2:{ exists (h0 ++ evs), (Raise e). split; [reflexivity|]. rewrite complaints_app, said_app, calls_app, S0, C0, S1, C1, K0.
      split; [reflexivity|]. split; [|split; [exact Logic.I|intros X; exfalso; apply X; reflexivity]].
      destruct K1 as (v & st & K1). exists v, st. apply prefix_app_l. exact K1. }
  destruct K1 as (v & st & K1). unfold bind. destruct (get_results_any competition (h0 ++ evs)) as (r2 & E2). rewrite E2.
  assert (calls (h0 ++ evs) = opening4 ++ [ReadStatus; SetStatus v st]) as CA by (rewrite calls_app, K0, K1; reflexivity).
  destruct r2 as [x|e].
  - destruct (each_matchup_any (get_matchup_ids x) x (h0 ++ evs)) as (ls & r & E). rewrite E. eexists _, r. split; [reflexivity|].
    destruct (map_said (ST:=tstatus) ls) as (M1 & M2 & M3 & _).
    rewrite !complaints_app, calls_app, C0, C1, M3, M1, CA, app_nil_r. split; [reflexivity|].
    split; [exists v, st; exists []; rewrite !app_nil_r; reflexivity|]. split; [destruct r|intros _]; try exact Logic.I; exists v, st; rewrite ?app_nil_r; reflexivity.
  - exists (h0 ++ evs), (Raise e). split; [reflexivity|]. rewrite complaints_app, C0, C1, CA. split; [reflexivity|].
    split; [exists v, st; exists []; rewrite app_nil_r; reflexivity|]. split; [exact Logic.I|]. eauto.
Qed.

Lemma main_any competition args : let '(h, code) := main competition given w decodes comp_vn brief traceback args in
  (code = 2 <-> List.length args <> 1%nat) /\ (code = 0 \/ code = 1 \/ code = 2) /\
  (code = 0 <-> complaints h = []) /\
  (exists v st, prefix (calls h) (opening4 ++ [ReadStatus; SetStatus v st])) /\
  (code = 0 \/ said h <> [] -> exists v st, calls h = opening4 ++ [ReadStatus; SetStatus v st]).
Proof.
  destruct args as [|control [|x rest]]; cbn [main].
  - split; [split; [discriminate|reflexivity]|]. split; [auto|]. split; [split; discriminate|].
    split; [exists 0, dummy; eexists; reflexivity|]. intros [X|X]; [discriminate|exfalso; apply X; reflexivity].
  - destruct (run_any competition control) as (h & r & E & C & K & G & SD). rewrite E.
    destruct r as [[]|e].
    + split; [split; [discriminate|intros X; exfalso; apply X; reflexivity]|]. split; [auto|]. split; [split; auto|]. split; [exact K|]. intros _. exact G.
    + assert (forall l : list bytes, l <> [] -> 
        let h' := h ++ map Complained l in
        (1 = 2 <-> List.length [control] <> 1%nat) /\ (1 = 0 \/ 1 = 1 \/ 1 = 2) /\ (1 = 0 <-> complaints h' = []) /\
        (exists v st, prefix (calls h') (opening4 ++ [ReadStatus; SetStatus v st])) /\
        (1 = 0 \/ said h' <> [] -> exists v st, calls h' = opening4 ++ [ReadStatus; SetStatus v st])) as D.
      { intros l NE h'. subst h'. split; [split; [discriminate|intros X; exfalso; apply X; reflexivity]|]. split; [auto|].
        assert (complaints (map (@Complained tstatus) l) = l /\ calls (map (@Complained tstatus) l) = [] /\ said (map (@Complained tstatus) l) = []) as (A1 & A2 & A3).
        { clear. induction l as [|a l (I1 & I2 & I3)]; [repeat split|]. cbn [map]. unfold complaints, calls, said in *. cbn [flat_map app]. rewrite I1, I2, I3. repeat split. }
        rewrite complaints_app, calls_app, said_app, A1, A2, A3, C, !app_nil_r. cbn [app].
        split; [split; [discriminate|intros X; contradiction]|]. split; [exact K|]. intros [X|X]; [discriminate|exact (SD X)]. }
      destruct e as [t| | | | | | | | | | |]; [exact (D [str "ringmaster:" ++ nl; t ++ nl] ltac:(discriminate))|..];
        match goal with |- context[traceback ?e] => exact (D [traceback e] ltac:(discriminate)) end.
  - split; [split; [discriminate|reflexivity]|]. split; [auto|]. split; [split; discriminate|].
    split; [exists 0, dummy; eexists; reflexivity|]. intros [X|X]; [discriminate|exfalso; apply X; reflexivity].
Qed.
End Script.
