(** C77: the keyboard stop (gomill/terminal_input.py). *)
From Verif Require Import Base Bytes TerminalModel TerminalSpec.

(** ** Lemmas *)
Lemma replace_at_some l n x : (n < List.length l)%nat -> exists l', replace_at l n x = Some l' /\ List.length l' = List.length l /\
  nth_error l' n = Some x /\ forall i, i <> n -> nth_error l' i = nth_error l i.
Proof.
  revert n. induction l as [|y l IH]; intros [|n] H; cbn [List.length] in H; try lia; cbn [replace_at].
  - exists (x :: l). split; [reflexivity|]. split; [reflexivity|]. split; [reflexivity|]. intros [|i] N; [congruence|reflexivity].
  - destruct (IH n ltac:(lia)) as (l' & E & L & A & B). rewrite E. exists (y :: l'). split; [reflexivity|]. split; [cbn [List.length]; lia|].
    split; [exact A|]. intros [|i] N; [reflexivity|]. cbn [nth_error]. apply B. congruence.
Qed.
Lemma replace_at_none l n x : (List.length l <= n)%nat -> replace_at l n x = None.
Proof. revert n. induction l as [|y l IH]; intros [|n] H; cbn [List.length] in H; try lia; cbn [replace_at]; [reflexivity|reflexivity|]. rewrite IH by lia. reflexivity. Qed.

Lemma mask_bits a m i : 0 <= i -> Z.testbit (Z.land a (Z.lxor 4294967295 m)) i = Z.testbit a i && xorb (i <? 32) (Z.testbit m i).
Proof.
  intros H. rewrite Z.land_spec, Z.lxor_spec. f_equal. f_equal. change 4294967295 with (Z.ones 32). destruct (Z.ltb_spec i 32).
  - apply Z.ones_spec_low. lia.
  - apply Z.ones_spec_high. lia.
Qed.

Lemma read_loop_spec input e seen :
  read_loop input e seen = (repeat Read (S (List.length input)), match e with None => Returned (seen || existsb (fun c => ceqb c ctrl_x) input) | Some x => Raised x end).
Proof.
  revert seen. induction input as [|c input IH]; intros seen; cbn [read_loop existsb].
  - rewrite orb_false_r. reflexivity.
  - rewrite IH. cbn [List.length repeat]. destruct e; [reflexivity|]. destruct (ceqb c ctrl_x), seen; reflexivity.
Qed.

(** ** Initialising *)

(** The terminal's flags fit in 32 bits, as does ICANON.  Unless it is interrupted,
    [initialise] raises nothing; the reader is then enabled exactly if the module exists and
    all calls work, and it's ready: its two sets of attributes are those of the terminal
    and the same unbuffered. *)
Theorem C77_initialise : forall t calls now r o,
  (forall k, t = Some k -> 0 <= ICANON k < 2 ^ 32) -> 0 <= lflag now < 2 ^ 32 ->
  initialise t calls now new_reader = (r, o) ->
  (i_open calls <> Some Interrupt -> i_pgrp calls <> Some Interrupt -> i_getattr calls <> Some Interrupt -> o = Returned tt) /\
  (o = Returned tt -> (enabled r = true <->
     exists k, t = Some k /\ i_open calls = None /\ i_pgrp calls = None /\ i_getattr calls = None /\ (VMIN k < List.length (cc now))%nat)) /\
  (forall k, t = Some k -> o = Returned tt -> enabled r = true -> ready k now r).
Proof.
  intros t calls now r o K L E. unfold initialise in E. cbn [negb enabled new_reader] in E.
  destruct t as [k|].
  2:{ injection E as <- <-. split; [auto|]. split; [intros _; cbn; split; [discriminate|intros (k & X & _); discriminate]|discriminate]. }
  assert (GU : forall r0 x, give_up r0 x = (r, o) -> (x <> Interrupt -> o = Returned tt) /\ (o = Returned tt -> enabled r = false)).
  { intros r0 x G. unfold give_up in G. destruct x; cbn in G; injection G as <- <-; cbn; split; auto; try congruence; intros X; try congruence; discriminate. }
  destruct (i_open calls) as [x|] eqn:E1.
  { destruct (GU _ _ E) as [G1 G2]. split; [intros X _ _; apply G1; congruence|]. split; [intros H; rewrite (G2 H); split; [discriminate|intros (k' & _ & X & _); discriminate]|intros k' _ H EN; rewrite (G2 H) in EN; discriminate]. }
  destruct (i_pgrp calls) as [x|] eqn:E2.
  { destruct (GU _ _ E) as [G1 G2]. split; [intros _ X _; apply G1; congruence|]. split; [intros H; rewrite (G2 H); split; [discriminate|intros (k' & _ & _ & X & _); discriminate]|intros k' _ H EN; rewrite (G2 H) in EN; discriminate]. }
  destruct (i_getattr calls) as [x|] eqn:E3.
  { destruct (GU _ _ E) as [G1 G2]. split; [intros _ _ X; apply G1; congruence|]. split; [intros H; rewrite (G2 H); split; [discriminate|intros (k' & _ & _ & _ & X & _); discriminate]|intros k' _ H EN; rewrite (G2 H) in EN; discriminate]. }
  destruct (Nat.lt_ge_cases (VMIN k) (List.length (cc now))) as [LT|GE].
  - destruct (replace_at_some (cc now) (VMIN k) 0 LT) as (l' & R & RL & RN & RO). rewrite R in E. apply pair_equal_spec in E. destruct E as [Er Eo]. split; [auto|]. split.
    + intros _. split; [intros _; exists k; auto 6|intros _; rewrite <- Er; reflexivity].
    + intros k' EK _ _. assert (k' = k) by congruence. subst k'. unfold ready. rewrite <- Er. cbn [enabled tty clean cbreak]. split; [reflexivity|]. split; [reflexivity|]. split; [reflexivity|].
      unfold unbuffered. cbn [iflag oflag cflag ispeed ospeed lflag cc]. do 5 (split; [reflexivity|]). split; [|split; [|auto]].
      * intros i Hi. rewrite mask_bits by lia. replace (i <? 32) with true by lia. rewrite Bool.xorb_true_l. reflexivity.
      * intros i Hi. rewrite mask_bits by lia. replace (Z.testbit (lflag now) i) with false; [reflexivity|].
        symmetry. destruct (Z.eq_dec (lflag now) 0) as [->|]; [apply Z.bits_0|]. apply Z.bits_above_log2; [lia|]. apply Z.log2_lt_pow2; [lia|]. apply Z.lt_le_trans with (2 ^ 32); [lia|]. apply Z.pow_le_mono_r; lia.
  - rewrite (replace_at_none _ _ _ GE) in E. destruct (GU _ _ E) as [G1 G2]. split; [intros _ _ _; apply G1; discriminate|].
    split; [intros H; rewrite (G2 H); split; [discriminate|intros (k' & EK & _ & _ & _ & LT); assert (k' = k) by congruence; subst k'; lia]|intros k' _ H EN; rewrite (G2 H) in EN; discriminate].
Qed.
Print Assumptions C77_initialise.

(** ** Checking *)

(** A check says that a stop was requested exactly if this process leads the group in the
    foreground, the attributes could be changed and restored, and ^X was in the input, which
    was read to its end. *)
Theorem C77_stop_requested : forall k now0 r c now, ready k now0 r ->
  (snd (stop_was_requested c now r) = Returned true <->
   in_foreground c /\ c_set c = IsSet /\ c_end c = None /\ c_restore c = IsSet /\ In "024"%char (c_input c)).
Proof.
  intros k now0 r c now (EN & TY & _ & _). unfold stop_was_requested, in_foreground. rewrite EN, TY. cbn [negb].
  destruct (c_pgrp c) as [g|e]; [|cbn; split; [discriminate|intros (X & _); discriminate]].
  destruct (Z.eqb_spec g (c_pid c)) as [->|NE]; cbn [negb]; [|cbn; split; [discriminate|intros (X & _); congruence]].
  destruct (c_set c) as [|e|e]; cbn [set_raises].
  - rewrite read_loop_spec. cbn [snd orb]. destruct (c_restore c) as [|e|e]; cbn [set_raises]; try (split; [discriminate|intros (_ & _ & _ & X & _); discriminate]).
    destruct (c_end c) as [e|].
    + split; [destruct (is_environment e); discriminate|intros (_ & _ & X & _); discriminate].
    + assert (existsb (fun x => ceqb x ctrl_x) (c_input c) = true <-> In "024"%char (c_input c)) as EX.
      { rewrite existsb_exists. split; [intros (x & I & Q); destruct (ceqb_spec x ctrl_x) as [->|]; [exact I|discriminate]|intros I; exists "024"%char; split; [exact I|reflexivity]]. }
      rewrite <- EX. split; [intros X; injection X as X; auto|intros (_ & _ & _ & _ & X); rewrite X; reflexivity].
  - cbn [snd]. split; [destruct (is_environment e); discriminate|intros (_ & X & _); discriminate].
  - cbn [snd]. split; [destruct (is_environment e); discriminate|intros (_ & X & _); discriminate].
Qed.
Print Assumptions C77_stop_requested.

(** The calls made.  None if the reader isn't enabled.  In the background, or if it can't
    find out, the terminal is neither read nor changed.  Otherwise the attributes are changed,
    and (if that didn't fail) all the input is read up to the first empty (or failing) read,
    and then the attributes are restored, whatever happens. *)
Theorem C77_calls : forall k now0 r c now, ready k now0 r ->
  fst (fst (stop_was_requested c now (disable r))) = [] /\
  (~ in_foreground c -> fst (fst (stop_was_requested c now r)) = [Tcgetpgrp]) /\
  (in_foreground c -> c_set c <> IsSet -> fst (fst (stop_was_requested c now r)) = [Tcgetpgrp; Tcsetattr (cbreak r)]) /\
  (in_foreground c -> c_set c = IsSet ->
     fst (fst (stop_was_requested c now r)) = [Tcgetpgrp; Tcsetattr (cbreak r)] ++ repeat Read (List.length (c_input c) + 1) ++ [Tcsetattr now0]).
Proof.
  intros k now0 r c now (EN & TY & CL & _). split; [reflexivity|]. unfold stop_was_requested, in_foreground. rewrite EN, TY, CL. cbn [negb].
  destruct (c_pgrp c) as [g|e]; [|split; [reflexivity|split; intros X; discriminate]].
  destruct (Z.eqb_spec g (c_pid c)) as [->|NE]; cbn [negb]; [|split; [reflexivity|split; intros X; congruence]].
  split; [intros N; congruence|]. rewrite read_loop_spec. split.
  - intros _ N. destruct (c_set c); [congruence| |]; reflexivity.
  - intros _ ->. cbn [set_raises fst]. rewrite Nat.add_1_r. reflexivity.
Qed.
Print Assumptions C77_calls.

(** After any number of checks the terminal is as it was, if no attempt to restore the
    attributes failed and no signal came right after a change. *)
Theorem C77_terminal_restored : forall k now r cs, ready k now r -> Forall undisturbed cs -> snd (fst (checks cs now r)) = now.
Proof.
  intros k now r cs RD. induction 1 as [|c cs [U1 U2] F IH]; [reflexivity|]. cbn [checks].
  assert (snd (fst (stop_was_requested c now r)) = now) as E.
  { destruct RD as (EN & TY & CL & _). unfold stop_was_requested. rewrite EN, TY, CL. cbn [negb]. destruct (c_pgrp c) as [g|e]; [|reflexivity].
    destruct (negb (g =? c_pid c)); [reflexivity|]. rewrite read_loop_spec. destruct (c_set c) as [|e|e]; cbn [set_raises fst snd after_set]; [|reflexivity|destruct (U2 e eq_refl)].
    destruct (c_restore c) as [|e|e]; [reflexivity|destruct (U1 e eq_refl)|reflexivity]. }
  destruct (stop_was_requested c now r) as [[calls now1] o]. cbn [fst snd] in E. subst now1.
  destruct (checks cs now r) as [[calls2 now2] os]. exact IH.
Qed.
Print Assumptions C77_terminal_restored.

(** A check that isn't interrupted and doesn't fail to set the attributes, and isn't refused
    the process group, raises nothing; in particular an error while reading doesn't
    count as a request. *)
Theorem C77_no_exception : forall k now0 r c now e, ready k now0 r -> snd (stop_was_requested c now r) = Raised e ->
  c_pgrp c = Raised e \/
  (in_foreground c /\ ((set_raises (c_set c) = Some e /\ e <> EnvironmentError) \/
                       (c_set c = IsSet /\ (set_raises (c_restore c) = Some e \/ (c_end c = Some e /\ e <> EnvironmentError))))).
Proof.
  intros k now0 r c now e (EN & TY & _) H. unfold stop_was_requested in H. rewrite EN, TY in H. cbn [negb] in H.
  unfold in_foreground. destruct (c_pgrp c) as [g|x]; [|left; injection H as <-; reflexivity].
  destruct (g =? c_pid c) eqn:EG; cbn [negb] in H; [|discriminate]. apply Z.eqb_eq in EG. right. split; [f_equal; exact EG|].
  rewrite read_loop_spec in H. destruct (c_set c) as [|x|x]; cbn [set_raises] in H; cbn [set_raises snd] in *.
  - right. split; [reflexivity|]. destruct (set_raises (c_restore c)) as [x|]; [left; injection H as ->; reflexivity|]. right.
    destruct (c_end c) as [x|]; [|discriminate]. destruct x; cbn in H; try discriminate; injection H as <-; split; [reflexivity|discriminate|reflexivity|discriminate|reflexivity|discriminate|reflexivity|discriminate].
  - left. destruct x; cbn in H; try discriminate; injection H as <-; split; [reflexivity|discriminate|reflexivity|discriminate|reflexivity|discriminate|reflexivity|discriminate].
  - left. destruct x; cbn in H; try discriminate; injection H as <-; split; [reflexivity|discriminate|reflexivity|discriminate|reflexivity|discriminate|reflexivity|discriminate].
Qed.
Print Assumptions C77_no_exception.

(** ** Examples and findings *)
Definition demo_termios : termios := mkTermios 2 6.
Definition demo_attr : tcattr := mkAttr 17664 5 191 35387 15 15 [3; 28; 127; 21; 4; 0; 1; 0; 17; 19; 26].
Definition demo_reader : reader := fst (initialise (Some demo_termios) (mkInit None None None) demo_attr new_reader).
Example demo_ready : ready demo_termios demo_attr demo_reader.
Proof.
  destruct (initialise (Some demo_termios) (mkInit None None None) demo_attr new_reader) as [r o] eqn:E.
  replace demo_reader with r by (unfold demo_reader; rewrite E; reflexivity).
  destruct (C77_initialise (Some demo_termios) (mkInit None None None) demo_attr r o) as (_ & _ & H); [intros k X; injection X as <-; unfold ICANON, demo_termios; lia|unfold lflag, demo_attr; lia|exact E|].
  apply pair_equal_spec in E. destruct E as [Er Eo]. apply H; [reflexivity|rewrite <- Eo; reflexivity|rewrite <- Er; reflexivity].
Qed.
Example C77_demo :
  stop_was_requested (mkCheck (Returned 7) 7 IsSet (str "ab" ++ ["024"%char]) None IsSet) demo_attr demo_reader =
    ([Tcgetpgrp; Tcsetattr (mkAttr 17664 5 191 35385 15 15 [3; 28; 127; 21; 4; 0; 0; 0; 17; 19; 26]); Read; Read; Read; Read; Tcsetattr demo_attr], demo_attr, Returned true) /\
  stop_was_requested (mkCheck (Returned 8) 7 IsSet ["024"%char] None IsSet) demo_attr demo_reader = ([Tcgetpgrp], demo_attr, Returned false) /\
  snd (stop_was_requested (mkCheck (Returned 7) 7 IsSet ["024"%char] (Some EnvironmentError) IsSet) demo_attr demo_reader) = Returned false.
Proof. vm_compute. repeat split. Qed.
(** A signal right after the attributes were changed leaves the terminal unbuffered. *)
Theorem C77_finding_interrupted : exists c, c_set c = SetThen Interrupt /\ c_restore c = IsSet /\
  snd (stop_was_requested c demo_attr demo_reader) = Raised Interrupt /\ snd (fst (stop_was_requested c demo_attr demo_reader)) <> demo_attr.
Proof. exists (mkCheck (Returned 7) 7 (SetThen Interrupt) [] None IsSet). vm_compute. repeat split; discriminate. Qed.
Print Assumptions C77_finding_interrupted.
(** If the terminal has gone, tcsetattr raises termios.error, which isn't caught (it's not an
    EnvironmentError); nor is the OSError from tcgetpgrp.  The run of the competition then
    ends with an internal error. *)
Theorem C77_finding_terminal_gone : exists c c',
  c_set c = NotSet TermiosError /\ snd (stop_was_requested c demo_attr demo_reader) = Raised TermiosError /\
  c_pgrp c' = Raised EnvironmentError /\ snd (stop_was_requested c' demo_attr demo_reader) = Raised EnvironmentError.
Proof. exists (mkCheck (Returned 7) 7 (NotSet TermiosError) [] None IsSet), (mkCheck (Raised EnvironmentError) 7 IsSet [] None IsSet). vm_compute. repeat split. Qed.
Print Assumptions C77_finding_terminal_gone.
