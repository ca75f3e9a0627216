(** What the engines are told during a game (C48). *)
From Coq Require Import QArith.
From Verif Require Import Base Bytes PyStr Dict BoardModel BoardSpec CommonModel SgfPropsModel GameplayModel GameplaySpec
  GameplayRunProofs GtpModel ControllerModel ControllerSpec ControllerProofs GtpGameModel GtpGameSpec.
Open Scope Z_scope.

(** ** Controllers *)
Section One.
Context {X : Type}.
Variable ch : channel X.
Notation ctl := (controller (X * list cevent)).

Definition fine (k : ctl) : Prop := c_closed k = false /\ c_bad k = broken (trace k).
Definition grew (k k' : ctl) (evs : list cevent) : Prop :=
  trace k' = trace k ++ evs /\ c_name k' = c_name k /\ c_aliases k' = c_aliases k /\ fine k'.

Lemma grew_refl k : fine k -> grew k k [].
Proof. intros F. unfold grew. rewrite app_nil_r. auto. Qed.
Lemma grew_trans a b c e f : grew a b e -> grew b c f -> grew a c (e ++ f).
Proof.
  intros (T & N & A & F) (T2 & N2 & A2 & F2). unfold grew. rewrite T2, T, N2, A2, app_assoc. auto.
Qed.
Lemma broken_app a b : broken (a ++ b) = broken a || broken b.
Proof. unfold broken. rewrite texts_app. destruct (texts low_level_error a); reflexivity. Qed.

Definition reply_result (name command : bytes) (args : list bytes) (rp : reply) (r : cres bytes) : Prop :=
  match rp with
  | Success text => r = CRet text
  | Failure text => exists msg, r = CBad msg (Some (command, args, text)) /\ message_about name msg text
  | Broken k text => exists msg, r = CChan k msg /\ message_about name msg text
  | Strange e => r = CExn e
  end.

Lemma exchange_reply name command args evs r : exchange command args evs -> outcome name command args evs r ->
  exists rp, exchanged command args evs rp /\ reply_result name command args rp r.
Proof.
  intros Ex O. inversion Ex as [[k text|e]|[[[|] text]|[k text|e]]]; subst; cbn in O; eexists; (split; [constructor|]); exact O.
Qed.

Lemma do_talk k k' cmd args r : fine k -> do_command (recorded ch) k cmd args = (k', r) ->
  exists evs rp, grew k k' evs /\ exchanged (meaning (c_aliases k) cmd) args evs rp /\
    reply_result (c_name k) (meaning (c_aliases k) cmd) args rp r.
Proof.
  intros [Op B] D. destruct (do_command_open ch k k' cmd args r Op D) as (evs & T & Ex & O & (N & K & A & E) & Cl & B').
  destruct (exchange_reply _ _ _ _ _ Ex O) as (rp & R1 & R2). exists evs, rp.
  split; [|auto]. unfold grew, fine. rewrite T, broken_app, <- B. auto.
Qed.

Definition safe_result (name command : bytes) (args : list bytes) (rp : reply) (r : cres (option bytes)) : Prop :=
  match rp with
  | Success text => r = CRet (Some text)
  | Failure text => exists msg, r = CBad msg (Some (command, args, text)) /\ message_about name msg text
  | Broken k text => r = CRet None
  | Strange e => r = CExn e
  end.

Lemma safe_talk k k' cmd args r : fine k -> safe_do_command (recorded ch) k cmd args = (k', r) ->
  (broken (trace k) = true /\ k' = k /\ r = CRet None) \/
  (broken (trace k) = false /\ exists evs rp, grew k k' evs /\ exchanged (meaning (c_aliases k) cmd) args evs rp /\
    safe_result (c_name k) (meaning (c_aliases k) cmd) args rp r).
Proof.
  intros [Op B] D. destruct (broken (trace k)) eqn:Br.
  - left. rewrite safe_do_shut in D by (right; exact B). injection D as <- <-. auto.
  - right. split; [reflexivity|].
    destruct (safe_do_open ch k k' cmd args r Op B D) as (evs & T & Ex & (r0 & O & R0) & N & K & A & Cl & B' & _).
    destruct (exchange_reply _ _ _ _ _ Ex O) as (rp & R1 & R2). exists evs, rp. split.
    + unfold grew, fine. rewrite T, broken_app, Br. unfold bad_after in B'. rewrite B in B'. auto.
    + split; [exact R1|]. destruct rp; cbn in *.
      * rewrite R2 in R0. exact R0.
      * destruct R2 as (msg & -> & M). eauto.
      * destruct R2 as (msg & -> & M). exact R0.
      * rewrite R2 in R0. exact R0.
Qed.

(** known_command in either mode *)
Definition known_in (ended : bool) := if ended then safe_known_command (recorded ch) else known_command (recorded ch).
Definition party_of (k : ctl) (code : bytes) (claims : bool) (n : nat) : party :=
  mkParty (c_name k) (c_aliases k) code claims n.

Lemma with_known_grew k k' evs d : grew k k' evs -> grew k (with_known d k') evs.
Proof. intros H. exact H. Qed.

Lemma known_talk code claims n ended k k' cmd r : fine k -> known_in ended k cmd = (k', r) ->
  exists q, grew k k' q /\ query (party_of k code claims n) ended cmd q (to_res r).
Proof.
  intros F. assert (E : known_in ended k cmd = known_command_with (if ended then safe_do_command (recorded ch) else plain_do_command (recorded ch)) k cmd)
    by (destruct ended; reflexivity).
  rewrite E. clear E. unfold known_command_with.
  destruct (dget cmd (c_known k)) as [b|] eqn:G.
  - intros H; injection H as <- <-.
    exists []. split; [apply grew_refl; exact F|]. constructor.
  - destruct ended.
    + destruct (safe_do_command (recorded ch) k (str "known_command") [translate (c_aliases k) cmd]) as [k1 r1] eqn:D.
      apply safe_talk in D; [|exact F]. destruct D as [(B & -> & ->)|(B & evs & rp & Gr & Ex & R)].
      * intros H; injection H as <- <-. exists []. split; [apply with_known_grew, grew_refl; exact F|]. constructor.
      * destruct rp as [text|text|kd text|e]; cbn in R.
        -- subst r1. intros H; injection H as <- <-. exists evs. split; [exact Gr|]. exact (qy_success (party_of k code claims n) _ cmd _ _ Ex).
        -- destruct R as (msg & -> & M). intros H; injection H as <- <-. exists evs. split; [exact Gr|]. exact (qy_failure (party_of k code claims n) _ cmd _ _ Ex).
        -- subst r1. intros H; injection H as <- <-. exists evs. split; [exact Gr|]. exact (qy_broken (party_of k code claims n) true cmd _ _ _ Ex).
        -- subst r1. intros H; injection H as <- <-. exists evs. split; [exact Gr|]. exact (qy_strange (party_of k code claims n) _ cmd _ _ Ex).
    + unfold plain_do_command.
      destruct (do_command (recorded ch) k (str "known_command") [translate (c_aliases k) cmd]) as [k1 r1] eqn:D.
      apply do_talk in D; [|exact F]. destruct D as (evs & rp & Gr & Ex & R).
      destruct rp as [text|text|kd text|e]; cbn in R.
      * subst r1. intros H; injection H as <- <-. exists evs. split; [exact Gr|]. exact (qy_success (party_of k code claims n) _ cmd _ _ Ex).
      * destruct R as (msg & -> & M). intros H; injection H as <- <-. exists evs. split; [exact Gr|]. exact (qy_failure (party_of k code claims n) _ cmd _ _ Ex).
      * destruct R as (msg & -> & M). intros H; injection H as <- <-. exists evs. split; [exact Gr|]. exact (qy_broken (party_of k code claims n) false cmd _ _ _ Ex).
      * subst r1. intros H; injection H as <- <-. exists evs. split; [exact Gr|]. exact (qy_strange (party_of k code claims n) _ cmd _ _ Ex).
Qed.
Lemma known_never_bad ended k k' cmd m x : known_in ended k cmd <> (k', CBad m x).
Proof.
  destruct ended; unfold known_in, safe_known_command, known_command, known_command_with; destruct (dget cmd (c_known k)); try discriminate.
  - destruct (safe_do_command _ _ _ _) as [k1 [?|? ?|? ?|?]]; discriminate.
  - destruct (plain_do_command _ _ _ _) as [k1 [?|? ?|? ?|?]]; discriminate.
Qed.
End One.

(** ** The game controller *)
Section Two.
Context {X : Type}.
Variable ch : colour -> channel X.
Notation ctl := (controller (X * list cevent)).
Notation gc := (gctl (X * list cevent)).
Definition chs (c : colour) := recorded (ch c).

Definition playing (g : gc) : Prop := forall c, exists k, g_get c g = Some k /\ fine k.
(** The state [g'] is [g] after something was said to the player [c]. *)
Definition told (g g' : gc) (c : colour) (k k' : ctl) (evs : list cevent) : Prop :=
  g_get c g = Some k /\ g' = g_put c k' g /\ grew k k' evs.

Lemma get_put c d k (g : gc) : g_get c (g_put d k g) = if colour_eqb c d then Some k else g_get c g.
Proof. destruct c, d; reflexivity. Qed.
Lemma put_same c k (g : gc) : g_get c g = Some k -> g_put c k g = g.
Proof. destruct g, c; cbn; intros ->; reflexivity. Qed.
Lemma put_put c k k' (g : gc) : g_put c k' (g_put c k g) = g_put c k' g.
Proof. destruct c; reflexivity. Qed.
Lemma put_cautious c k (g : gc) : g_cautious (g_put c k g) = g_cautious g.
Proof. destruct c; reflexivity. Qed.
Lemma put_code c d k (g : gc) : g_code c (g_put d k g) = g_code c g.
Proof. destruct c, d; reflexivity. Qed.
Lemma put_late d k (g : gc) : g_late (g_put d k g) = g_late g.
Proof. destruct d; reflexivity. Qed.

Lemma told_playing g g' c k k' evs : told g g' c k k' evs -> playing g -> playing g'.
Proof.
  intros (G & -> & (_ & _ & _ & F)) P d. rewrite get_put. destruct (colour_eqb_spec d c); [eauto|apply P].
Qed.
Lemma told_refl g c k : g_get c g = Some k -> fine k -> told g g c k k [].
Proof. intros G F. split; [exact G|]. split; [symmetry; apply put_same; exact G|]. apply grew_refl, F. Qed.
Lemma told_trans g g1 g2 c k k1 k1' k2 e f : told g g1 c k k1 e -> told g1 g2 c k1' k2 f -> told g g2 c k k2 (e ++ f).
Proof.
  intros (G & -> & Gr) (G1 & -> & Gr1). rewrite get_put in G1.
  destruct (colour_eqb_spec c c); [|congruence]. injection G1 as <-.
  split; [exact G|]. split; [apply put_put|]. exact (grew_trans _ _ _ _ _ Gr Gr1).
Qed.

Lemma g_known_talk code claims n g g' c cmd r : playing g -> g_known_command chs g c cmd = (g', r) ->
  exists k k' q, told g g' c k k' q /\ query (party_of k code claims n) (g_cautious g) cmd q (to_res r) /\
    (forall m x, r <> CBad m x).
Proof.
  intros P. unfold g_known_command, on_player. destruct (P c) as (k & G & F). rewrite G.
  assert (E : (if g_cautious g then safe_known_command (chs c) k cmd else known_command (chs c) k cmd) =
              known_in (ch c) (g_cautious g) k cmd) by (destruct (g_cautious g); reflexivity).
  rewrite E. clear E. destruct (known_in (ch c) (g_cautious g) k cmd) as [k' r'] eqn:K. intros H; injection H as <- <-.
  pose proof K as K2. apply (known_talk _ code claims n) in K; [|exact F]. destruct K as (q & Gr & Q).
  exists k, k', q. split; [split; [exact G|split; [reflexivity|exact Gr]]|]. split; [exact Q|].
  intros m x ->. exact (known_never_bad _ _ _ _ _ _ _ K2).
Qed.

Lemma maybe_talk code claims n g g' c cmd r : playing g -> maybe_send_command chs g c cmd [] = (g', r) ->
  exists k k' evs, told g g' c k k' evs /\
    optional_talk (party_of k code claims n) (g_cautious g) (trace k) cmd evs (to_res r) /\
    (forall m x, r <> CBad m x).
Proof.
  intros P. unfold maybe_send_command.
  destruct (g_known_command chs g c cmd) as [g1 r1] eqn:K. apply (g_known_talk code claims n) in K; [|exact P].
  destruct K as (k & k1 & q & T & Q & NB).
  pose proof (told_playing _ _ _ _ _ _ T P) as P1.
  destruct T as (G & E1 & Gr). destruct Gr as (Tr & Nm & Al & F1).
  assert (T : told g g1 c k k1 q) by (split; [exact G|]; split; [exact E1|]; unfold grew; auto).
  assert (G1 : g_get c g1 = Some k1) by (rewrite E1, get_put; destruct (colour_eqb_spec c c); congruence).
  destruct r1 as [[|]|m x|kd m|e].
  - unfold on_player. rewrite G1. destruct (g_cautious g) eqn:Ca.
    + destruct (safe_do_command (chs c) k1 cmd []) as [k2 r2] eqn:D. apply safe_talk in D; [|exact F1].
      destruct D as [(B & -> & ->)|(B & evs & rp & Gr & Ex & R)].
      * intros H; injection H as <- <-. exists k, k1, q. split; [rewrite put_same by exact G1; exact T|].
        split; [|discriminate]. apply ot_given_up; [exact Q|reflexivity|]. rewrite <- Tr. exact B.
      * assert (T2 : told g (g_put c k2 g1) c k k2 (q ++ evs)).
        { apply (told_trans _ g1 _ _ _ k1 k1); [exact T|]. split; [exact G1|auto]. }
        rewrite Al, Nm in *.
        assert (S := ot_sent (party_of k code claims n) true (trace k) cmd q evs rp Q (fun _ => eq_trans (f_equal broken (eq_sym Tr)) B) Ex).
        destruct rp as [text|text|kd text|e]; cbn in R.
        -- subst r2. intros H; injection H as <- <-. exists k, k2, (q ++ evs). split; [exact T2|]. split; [exact S|discriminate].
        -- destruct R as (msg & -> & M). intros H; injection H as <- <-. exists k, k2, (q ++ evs). split; [exact T2|]. split; [exact S|discriminate].
        -- subst r2. intros H; injection H as <- <-. exists k, k2, (q ++ evs). split; [exact T2|]. split; [exact S|discriminate].
        -- subst r2. intros H; injection H as <- <-. exists k, k2, (q ++ evs). split; [exact T2|]. split; [exact S|discriminate].
    + unfold plain_do_command. destruct (do_command (chs c) k1 cmd []) as [k2 r2] eqn:D. apply do_talk in D; [|exact F1].
      destruct D as (evs & rp & Gr & Ex & R).
      assert (T2 : told g (g_put c k2 g1) c k k2 (q ++ evs)).
      { apply (told_trans _ g1 _ _ _ k1 k1); [exact T|]. split; [exact G1|auto]. }
      rewrite Al, Nm in *.
      assert (S := ot_sent (party_of k code claims n) false (trace k) cmd q evs rp Q ltac:(discriminate) Ex).
      destruct rp as [text|text|kd text|e]; cbn in R.
      * subst r2. intros H; injection H as <- <-. exists k, k2, (q ++ evs). split; [exact T2|]. split; [exact S|discriminate].
      * destruct R as (msg & -> & M). intros H; injection H as <- <-. exists k, k2, (q ++ evs). split; [exact T2|]. split; [exact S|discriminate].
      * destruct R as (msg & -> & M). intros H; injection H as <- <-. exists k, k2, (q ++ evs). split; [exact T2|]. split; [exact S|discriminate].
      * subst r2. intros H; injection H as <- <-. exists k, k2, (q ++ evs). split; [exact T2|]. split; [exact S|discriminate].
  - intros H; injection H as <- <-. exists k, k1, q. split; [exact T|]. split; [apply ot_unknown; exact Q|discriminate].
  - elim (NB m x eq_refl).
  - intros H; injection H as <- <-. exists k, k1, q. split; [exact T|]. split; [apply ot_raised; exact Q|discriminate].
  - intros H; injection H as <- <-. exists k, k1, q. split; [exact T|]. split; [apply ot_raised; exact Q|discriminate].
Qed.

(** Sending a command, in either mode. *)
Lemma send_talk g g' c cmd args r : playing g -> send_command chs g c cmd args = (g', r) ->
  exists k k', 
  (g_cautious g = true /\ broken (trace k) = true /\ told g g' c k k' [] /\ r = CBad (late_message c g) None) \/
  ((g_cautious g = true -> broken (trace k) = false) /\
   exists evs rp, told g g' c k k' evs /\ exchanged (meaning (c_aliases k) cmd) args evs rp /\
    match rp with
    | Success text => r = CRet text
    | Failure text => exists msg, r = CBad msg (Some (meaning (c_aliases k) cmd, args, text)) /\ message_about (c_name k) msg text
    | Broken kd text => if g_cautious g then r = CBad (late_message c g) None else exists msg, r = CChan kd msg
    | Strange e => r = CExn e
    end).
Proof.
  intros P. unfold send_command, on_player. destruct (P c) as (k & G & F). rewrite G. destruct (g_cautious g) eqn:Ca.
  - destruct (safe_do_command (chs c) k cmd args) as [k' r'] eqn:D. apply safe_talk in D; [|exact F].
    destruct D as [(B & -> & ->)|(B & evs & rp & Gr & Ex & R)].
    + intros H; injection H as <- <-. exists k, k. left. split; [reflexivity|]. split; [exact B|].
      split; [rewrite put_same by exact G; apply told_refl; assumption|reflexivity].
    + intros H. exists k, k'. right. split; [auto|]. exists evs, rp.
      assert (Tl : told g (g_put c k' g) c k k' evs) by (split; [exact G|auto]).
      destruct rp as [text|text|kd text|e]; cbn in R.
      * subst r'. injection H as <- <-. split; [exact Tl|]. auto.
      * destruct R as (msg & -> & M). injection H as <- <-. split; [exact Tl|]. eauto.
      * subst r'. injection H as <- <-. split; [exact Tl|]. auto.
      * subst r'. injection H as <- <-. split; [exact Tl|]. auto.
  - destruct (do_command (chs c) k cmd args) as [k' r'] eqn:D. apply do_talk in D; [|exact F].
    destruct D as (evs & rp & Gr & Ex & R). intros H; injection H as <- <-. exists k, k'. right. split; [discriminate|].
    exists evs, rp. split; [split; [exact G|auto]|]. split; [exact Ex|].
    destruct rp as [text|text|kd text|e]; cbn in R; auto. destruct R as (msg & -> & M); eauto.
Qed.
End Two.
