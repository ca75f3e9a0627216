From Coq Require Import QArith Permutation.
From Verif Require Import Base Bytes PyStr Dict CommonModel SchedModel GameplayModel TournModel TournSpec TableModel TableSpec ReportModel ReportSpec.
Open Scope Z_scope.

Lemma dset_In {A} k (v : A) d x : In x (dset k v d) -> x = (k, v) \/ In x d.
Proof.
  induction d as [|[k' v'] d IH]; cbn [dset]; [intros [<-|[]]; left; reflexivity|].
  destruct (bytes_eqb k k') eqn:E; intros [<-|I]; [left|right; right; exact I|right; left; reflexivity|].
  - destruct (bytes_eqb_spec k k'); congruence.
  - destruct (IH I) as [->|J]; [left; reflexivity|right; right; exact J].
Qed.

Section History.
Variable who : bytes -> bytes * bytes.

Definition good (id : bytes) (r : game_result) : Prop := between who id (gr_player_b r) (gr_player_w r) /\ timed_result r.
Definition good_results (d : dict (list game_result)) : Prop := forall id rs, In (id, rs) d -> Forall (good id) rs.
Definition good_config (cf : tconfig) : Prop := forall m, In m (cf_matchups cf) -> between who (m_id m) (m_player_1 m) (m_player_2 m).
Definition good_t (t : tourn) : Prop :=
  good_config (t_config t) /\ good_results (t_results t) /\ (forall id p, In (id, p) (t_ghosts t) -> between who id (fst p) (snd p)).
Definition good_saved (s : tstatus) : Prop :=
  good_results (map (fun kv => (fst kv, map game_result_setstate (snd kv))) (ts_results s)).

Lemma good_dset d id l : good_results d -> Forall (good id) l -> good_results (dset id l d).
Proof. intros G F k rs I. apply dset_In in I. destruct I as [E|I]; [|exact (G k rs I)]. injection E as -> ->. exact F. Qed.

Lemma good_dget d id : good_results d -> Forall (good id) (match dget id d with Some l => l | None => [] end).
Proof. intros G. destruct (dget id d) eqn:E; [|constructor]. exact (G _ _ (dget_In _ _ _ E)). Qed.

Lemma good_touch d id : good_results d -> good_results (touch id d).
Proof. intros G. unfold touch. destruct (dget id d); [exact G|]. apply good_dset; [exact G|constructor]. Qed.

Lemma good_check ms : forall d d', good_results d -> check_results ms d = Ok d' -> good_results d'.
Proof.
  induction ms as [|m ms IH]; intros d d' G E; cbn [check_results] in E; [injection E as <-; exact G|].
  pose proof (good_touch d (m_id m) G) as G'. destruct (dget (m_id m) (touch (m_id m) d)) as [[|r l]|]; try exact (IH _ _ G' E).
  match type of E with (if ?b then _ else _) = _ => destruct b end; [|discriminate]. exact (IH _ _ G' E).
Qed.

Lemma good_ghosts live d : forall g, good_results d -> ghost_matchups live d = Ok g -> forall id p, In (id, p) g -> between who id (fst p) (snd p).
Proof.
  induction d as [|[id rs] d IH]; intros g G E; cbn [ghost_matchups] in E; [injection E as <-; intros ? ? []|].
  assert (G' : good_results d) by (intros k l I; apply G; right; exact I).
  destruct (bmem id live); [exact (IH g G' E)|]. destruct rs as [|r rs]; [discriminate|].
  destruct (ghost_matchups live d) as [tl|] eqn:T; cbn [bind] in E; [|discriminate]. injection E as <-.
  intros id' p [X|I]; [|exact (IH tl G' eq_refl id' p I)]. injection X as <- <-.
  pose proof (G id (r :: rs) (or_introl eq_refl)) as F. inversion F as [|? ? [B _] _]; subst. exact B.
Qed.

Lemma step_good s e : sensible who e ->
  (match fst s with Some t => good_t t | None => True end) /\ (match snd s with Some x => good_saved x | None => True end) ->
  let s' := fst (trun_step s e) in
  (match fst s' with Some t => good_t t | None => True end) /\ (match snd s' with Some x => good_saved x | None => True end).
Proof.
  intros SE. destruct s as [x sv]. cbn [fst snd]. intros [GT GS].
  destruct e as [|r|j| | |cf]; cbn [trun_step].
  - destruct x as [t|]; [|split; assumption].
    assert (GG : good_t (fst (get_game t))).
    { unfold get_game. destruct (gissue (t_sched t)) as [g [[[id n]|]|e]]; [|exact GT|exact GT].
      destruct (find_matchup (t_config t) id) as [m|]; [|exact GT]. cbv zeta.
      match goal with |- context [if ?b then _ else _] => destruct b end; exact GT. }
    destruct (get_game t) as [t' [[j|]|er]]; split; assumption.
  - destruct x as [t|]; [|split; assumption].
    assert (GG : good_t (fst (process_game_result r t))).
    { unfold process_game_result. destruct SE as [SB ST].
      assert (NE : forall l t, good_t t -> good_t (note_engines l t)).
      { clear. unfold note_engines. induction l as [|e l IH]; intros t G; [exact G|]. cbn [fold_left]. apply IH. exact G. }
      pose proof (NE (rs_engines r) t GT) as G1. cbv zeta. set (t1 := note_engines (rs_engines r) t) in *. destruct (rs_data r) as [id n].
      cbn [fst] in SB. destruct G1 as (A & B & C).
      match goal with |- context [gfix ?a ?b ?c] => destruct (gfix a b c) as [g [u|er]] end; cbn [fst].
      - split; [exact A|]. split; [|exact C]. cbn [t_results]. apply good_dset; [exact B|]. apply Forall_app. split; [apply good_dget; exact B|].
        constructor; [|constructor]. split; [exact SB|exact ST].
      - split; [exact A|]. split; [exact B|exact C]. }
    destruct (process_game_result r t) as [t' [u|er]]; split; assumption.
  - destruct x as [t|]; [|split; assumption].
    assert (GG : good_t (fst (process_game_error j t))).
    { unfold process_game_error. cbv zeta. match goal with |- context [if ?b then _ else _] => destruct b end; exact GT. }
    destruct (process_game_error j t) as [t' [stop retry]]. split; assumption.
  - destruct x as [t|]; [|split; assumption]. cbn [fst snd]. split; [|exact GS]. destruct GT as (A & B & C). split; [exact A|]. split; [|exact C].
    unfold write_report. cbn [t_results t_config]. unfold touch_all. generalize (cf_matchups (t_config t)) as ms. revert B. generalize (t_results t) as d. clear.
    intros d B ms. revert d B. induction ms as [|m ms IH]; intros d B; [exact B|]. cbn [fold_left]. apply IH. apply good_touch. exact B.
  - destruct x as [t|]; [|split; assumption]. cbn [fst snd]. split; [exact GT|].
    destruct GT as (_ & B & _). unfold good_saved, get_status. cbn [ts_results]. rewrite map_map. intros id rs I. apply in_map_iff in I.
    destruct I as ([k l] & E & I). cbn [fst snd] in E. injection E as <- <-. rewrite map_map. pose proof (B k l I) as F. clear -F.
    induction F as [|r l G F IH]; cbn [map]; constructor; [|exact IH]. exact G.
  - destruct sv as [st|].
    + destruct (set_status cf st) as [t|er] eqn:E; cbn [fst snd]; [|split; [exact I|exact GS]]. split; [|exact GS].
      unfold set_status in E.
      match type of E with bind ?a _ = _ => destruct a as [u|]; cbn [bind] in E; [|discriminate] end. cbv zeta in E.
      match type of E with bind ?a _ = _ => destruct a as [d|] eqn:D; cbn [bind] in E; [|discriminate] end.
      match type of E with bind ?a _ = _ => destruct a as [g|] eqn:GH; cbn [bind] in E; [|discriminate] end.
      injection E as <-. pose proof (good_check _ _ _ GS D) as GD. split; [exact SE|]. split; [exact GD|]. exact (good_ghosts _ _ _ GD GH).
    + cbn [fst snd]. split; [|exact I]. split; [exact SE|]. split; [intros ? ? []|intros ? ? []].
Qed.

Lemma run_good es : forall s, Forall (sensible who) es ->
  (match fst s with Some t => good_t t | None => True end) /\ (match snd s with Some x => good_saved x | None => True end) ->
  match fst (fst (trun s es)) with Some t => good_t t | None => True end.
Proof.
  induction es as [|e es IH]; intros s F G; [apply G|]. inversion F as [|? ? SE F']; subst. cbn [trun].
  pose proof (step_good s e SE G) as G'. destruct (trun_step s e) as [s1 a]. cbn [fst] in G'.
  pose proof (IH s1 F' G') as R. destruct (trun s1 es) as [s2 os]. exact R.
Qed.

Lemma reportable_proof es t sv os : (forall id, word (fst (who id)) /\ word (snd (who id))) -> Forall (sensible who) es ->
  trun (None, None) es = ((Some t, sv), os) -> reportable t.
Proof.
  intros W F E. pose proof (run_good es (None, None) F (conj I I)) as G. rewrite E in G. cbn [fst] in G. destruct G as (GC & GR & GG).
  assert (K : forall id a b, between who id a b -> word a /\ word b /\ has_times a (get_matchup_results t id) /\ has_times b (get_matchup_results t id)).
  { intros id a b B. destruct (W id) as [W1 W2].
    assert (FF : Forall (good id) (get_matchup_results t id)) by (apply good_dget; exact GR).
    assert (HT : forall x, x = fst (who id) \/ x = snd (who id) -> has_times x (get_matchup_results t id)).
    { intros x X. unfold has_times. eapply Forall_impl; [|exact FF]. intros r [RB [TB TW]].
      destruct RB as [RB|RB]; rewrite RB in X; cbn [fst snd] in X; destruct X as [->| ->]; assumption. }
    destruct B as [B|B]; rewrite B in W1, W2, HT; cbn [fst snd] in *; repeat split; try assumption; try (apply W1); try (apply W2); apply HT; tauto. }
  split.
  - intros m M. apply K. apply GC. exact M.
  - intros id p I. apply K. apply GG. exact I.
Qed.
End History.
