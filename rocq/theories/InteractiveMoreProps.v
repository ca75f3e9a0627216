(** More about interactive sessions (see InteractiveProps.v). *)
From Coq Require Import List Bool ZArith Lia.
Import ListNotations.
From Verif Require Import Base Bytes Dict EngineModel EngineProofs GtpModel GtpSpec GtpSessionProofs InteractiveModel InteractiveSpec InteractiveProofs InteractiveProps.

(** A history as readline keeps it: no empty lines, and no line twice in a row. *)
Definition clean_history (h : list bytes) : Prop :=
  ~ In [] h /\ forall before x after, h <> before ++ [x; x] ++ after.

Lemma clean_add h x : clean_history h -> x <> [] -> last h [] <> x -> clean_history (h ++ [x]).
Proof.
  intros [N R] Nx L. split.
  - intros I. apply in_app_or in I as [I|[I|[]]]; [exact (N I)|exact (Nx I)].
  - intros b y a E. destruct a as [|z a'] using rev_ind; [|clear IHa'].
    + replace (b ++ [y; y] ++ []) with ((b ++ [y]) ++ [y]) in E by (rewrite <- app_assoc; reflexivity).
      apply app_inj_tail in E as [-> ->]. apply L. rewrite last_last. reflexivity.
    + rewrite !app_assoc in E. apply app_inj_tail in E as [E _]. apply (R b y a'). rewrite E, app_assoc. reflexivity.
Qed.
Lemma clean_remember lines : forall h, clean_history h -> clean_history (fold_left remember lines h).
Proof.
  induction lines as [|l lines IH]; intros h C; [exact C|]. cbn [fold_left]. apply IH. unfold remember.
  destruct l as [|c l]; [exact C|]. destruct (bytes_eqb (last h []) (c :: l)) eqn:E; [exact C|].
  apply clean_add; [exact C|discriminate|]. intros X. rewrite X, bytes_eqb_refl in E. discriminate.
Qed.
Lemma last_In {A} (h : list A) d x : last h d = x -> x <> d -> In x h.
Proof.
  destruct h as [|y h] using rev_ind; [cbn; intros E N; congruence|]. rewrite last_last. intros <- _. apply in_or_app. right. left. reflexivity.
Qed.
Lemma remember_grows lines : forall h x, In x (fold_left remember lines h) <-> In x h \/ (In x lines /\ x <> []).
Proof.
  induction lines as [|l lines IH]; intros h x; cbn [fold_left In]; [tauto|]. rewrite IH.
  assert (In x (remember h l) <-> In x h \/ (l = x /\ x <> [])) as ->; [|tauto].
  unfold remember. destruct l as [|c l]; [intuition (subst; congruence)|].
  destruct (bytes_eqb_spec (last h []) (c :: l)) as [E|E].
  - split; [tauto|]. intros [I|[<- _]]; [exact I|]. eapply last_In; [exact E|discriminate].
  - rewrite in_app_iff. cbn [In]. intuition (subst; congruence).
Qed.

(** What is in the history after a session: what was there, what the history file had, and the lines read other
    than the empty ones; if there were no empty lines and no repetitions before, there are none
    after. *)
Theorem C88_the_history_is_clean :
  forall S (e : engine S) s input lines ws t s' out why t', file_lines input lines ->
  run_interactive_gtp_session e true s input ws t = (s', out, why, t') ->
  let before := t_history t ++ match t_file t with Some h => h | None => [] end in
  (clean_history before -> clean_history (t_history t')) /\
  exists k, (why = AtEof -> (List.length lines <= k)%nat) /\
    forall x, In x (t_history t') <->
      In x before \/ (x <> [] /\ exists l, In l (firstn k lines) /\ (l = x ++ [char_lf] \/ l = x /\ last l char_sp <> char_lf)).
Proof.
  intros S e s input lines ws t s' out why t' F X before.
  destruct (C88_readline_after_the_session _ e s input lines ws t s' out why t' F X) as [(k & E & K) _].
  fold before in E. rewrite E. split; [intros C; apply clean_remember; exact C|].
  exists k. split; [exact K|]. intros x. rewrite remember_grows, firstn_map, in_map_iff.
  assert (forall l, (if ceqb (last l char_sp) char_lf then removelast l else l) = x <->
    (l = x ++ [char_lf] \/ l = x /\ last l char_sp <> char_lf)) as H.
  { intros l. destruct (ceqb_spec (last l char_sp) char_lf) as [Q|N].
    - split.
      + intros <-. left. destruct l as [|y l] using rev_ind; [discriminate Q|]. rewrite last_last in Q. subst y.
        rewrite removelast_last. reflexivity.
      + intros [-> | [_ N]]; [apply removelast_last|contradiction].
    - split; [intros ->; right; auto|]. intros [-> | [-> _]]; [|reflexivity]. exfalso. apply N. apply last_last. }
  split.
  - intros [I|[(l & Y & I) N]]; [left; exact I|]. right. split; [exact N|]. exists l. split; [exact I|]. apply H. exact Y.
  - intros [I|[N (l & I & Y)]]; [left; exact I|]. right. split; [|exact N]. exists l. split; [apply H; exact Y|exact I].
Qed.
Print Assumptions C88_the_history_is_clean.

(** A clean history that isn't trivial; [remember] gives such a history for lines with empty ones
    and repetitions. *)
Example C88_demo_clean :
  clean_history [] /\
  fold_left remember [str "name"; []; str "name"; str "quit"; []] [] = [str "name"; str "quit"].
Proof.
  split; [|vm_compute; reflexivity]. split; [intros []|].
  intros b x a E. destruct b; discriminate E.
Qed.
