(** Proofs about the test player (C85). *)
From Verif Require Import Base Bytes PyStr Dict CommonModel GtpModel GtpArgSpec GtpArgProofs TestPlayerModel TestPlayerSpec.

Lemma interpret_int_number a n : interpret_int a = GOk n <-> move_number a n.
Proof.
  unfold interpret_int. assert (G : gtp_int_max = 2147483647) by reflexivity. rewrite G. split.
  - destruct (py_int a) as [z|e] eqn:E; [|discriminate]. intros H. assert (L : int_literal a z) by (apply py_int_literal; exact E).
    destruct (Z.ltb_spec z 0) as [Z0|Z0]; [|destruct (Z.ltb_spec 2147483647 z) as [Z1|Z1]].
    + replace n with (-1) by congruence. exact (mn_negative a z L Z0).
    + replace n with 2147483647 by congruence. exact (mn_large a z L Z1).
    + replace n with z by congruence. exact (mn_small a z L (conj Z0 Z1)).
  - intros M. destruct M as [a z L B|a z L B|a z L B]; apply py_int_literal in L; rewrite L.
    + destruct (Z.ltb_spec z 0) as [Z0|Z0]; [lia|]. destruct (Z.ltb_spec 2147483647 z) as [Z1|Z1]; [lia|reflexivity].
    + destruct (Z.ltb_spec z 0) as [Z0|Z0]; [reflexivity|lia].
    + destruct (Z.ltb_spec z 0) as [Z0|Z0]; [lia|]. destruct (Z.ltb_spec 2147483647 z) as [Z1|Z1]; [reflexivity|lia].
Qed.
Lemma interpret_int_bad a : (forall n, ~ move_number a n) -> interpret_int a = GError (str "invalid int: '" ++ a ++ str "'").
Proof.
  intros N. destruct (interpret_int a) as [n|m|m|m|m] eqn:E; [elim (N n); apply interpret_int_number; exact E| | | |];
    revert E; unfold interpret_int; destruct (py_int a); try discriminate; intros H; congruence.
Qed.
Lemma interpret_int_cases a : (exists n, interpret_int a = GOk n /\ move_number a n) \/
  ((forall n, ~ move_number a n) /\ interpret_int a = GError (str "invalid int: '" ++ a ++ str "'")).
Proof.
  destruct (interpret_int a) as [n|m|m|m|m] eqn:E; [left; exists n; split; [reflexivity|apply interpret_int_number; exact E]| | | |];
    (right; assert (N : forall n, ~ move_number a n) by (intros n M; apply interpret_int_number in M; congruence);
     split; [exact N|rewrite <- E; exact (interpret_int_bad a N)]).
Qed.

Definition G : bytes := str "genmove".
Definition P : bytes := str "play".
Definition D : bytes := str "gomill-delayed_error".

Definition memory : Type := (option (Z * list bytes) * Z)%type.
Definition step (s : memory) (c : command) : memory :=
  let (d, k) := s in
  if bytes_eqb (fst c) (str "genmove") then
    (match d with Some (n, r) => if negb (n =? 0) && (n <=? k + 1) then None else Some (n, r) | None => None end, k + 1)
  else if bytes_eqb (fst c) (str "play") then (d, k + 1)
  else if bytes_eqb (fst c) (str "gomill-delayed_error") then
    (match snd c with a :: r => match interpret_int a with GOk n => Some (n, r) | _ => d end | [] => d end, k)
  else (d, k).
Definition after (h : list command) : memory := fold_left step h (None, 0).
Lemma after_app h c : after (h ++ [c]) = step (after h) c.
Proof. unfold after. rewrite fold_left_app. reflexivity. Qed.

Lemma due_b n k : negb (n =? 0) && (n <=? k) = true <-> due n k.
Proof. unfold due. destruct (Z.eqb_spec n 0); destruct (Z.leb_spec n k); cbn; intuition congruence || lia. Qed.
Lemma due_dec n k : (negb (n =? 0) && (n <=? k) = true /\ due n k) \/ (negb (n =? 0) && (n <=? k) = false /\ ~ due n k).
Proof.
  destruct (negb (n =? 0) && (n <=? k)) eqn:E; [left; split; [reflexivity|apply due_b; exact E]|].
  right. split; [reflexivity|]. intros H. apply due_b in H. congruence.
Qed.

Lemma step_other s c args : c <> str "genmove" -> c <> str "play" -> c <> str "gomill-delayed_error" -> step s (c, args) = s.
Proof.
  intros A B C. unfold step. destruct s as [d k]. cbn [fst snd].
  destruct (bytes_eqb_spec c (str "genmove")); [contradiction|]. destruct (bytes_eqb_spec c (str "play")); [contradiction|].
  destruct (bytes_eqb_spec c (str "gomill-delayed_error")); [contradiction|]. reflexivity.
Qed.
Lemma step_genmove d k args : step (d, k) (str "genmove", args) =
  (match d with Some (n, r) => if negb (n =? 0) && (n <=? k + 1) then None else Some (n, r) | None => None end, k + 1).
Proof. reflexivity. Qed.
Lemma step_play d k args : step (d, k) (str "play", args) = (d, k + 1).
Proof. reflexivity. Qed.
Lemma step_set d k args : step (d, k) (str "gomill-delayed_error", args) =
  (match args with a :: r => match interpret_int a with GOk n => Some (n, r) | _ => d end | [] => d end, k).
Proof. reflexivity. Qed.

Lemma moves_after h n : moves h n -> snd (after h) = n.
Proof.
  induction 1 as [|h n args c M IH C|h n args c M IH C1 C2]; [reflexivity| |]; rewrite after_app; destruct (after h) as [d k]; cbn [snd] in IH; subst k.
  - destruct C as [->| ->]; [rewrite step_genmove|rewrite step_play]; reflexivity.
  - destruct (list_eq_dec ascii_dec c (str "gomill-delayed_error")) as [->|C3]; [rewrite step_set; reflexivity|].
    rewrite (step_other _ _ _ C1 C2 C3). reflexivity.
Qed.
Lemma waiting_after h d : waiting h d -> fst (after h) = d.
Proof.
  induction 1 as [|h d a n r W IH M|h d args W IH B|h n r args k W IH M Du|h n r args k W IH M Du|h args W IH|h d c args W IH C1 C2];
    [reflexivity| | | | | |]; rewrite after_app; destruct (after h) as [d0 k0] eqn:A; cbn [fst] in IH; subst d0.
  - rewrite step_set. apply interpret_int_number in M. rewrite M. reflexivity.
  - rewrite step_set. cbn [fst]. destruct args as [|a r]; [reflexivity|]. destruct (interpret_int a) as [n|m|m|m|m] eqn:E; try reflexivity.
    elim (B a r n eq_refl). apply interpret_int_number. exact E.
  - rewrite step_genmove. cbn [fst]. apply moves_after in M. rewrite A in M. cbn [snd] in M. subst k0. apply due_b in Du. rewrite Du. reflexivity.
  - rewrite step_genmove. cbn [fst]. apply moves_after in M. rewrite A in M. cbn [snd] in M. subst k0.
    destruct (due_dec n (k + 1)) as [[_ Y]|[E _]]; [contradiction|]. rewrite E. reflexivity.
  - reflexivity.
  - destruct (list_eq_dec ascii_dec c (str "play")) as [->|C3]; [rewrite step_play; reflexivity|].
    rewrite (step_other _ _ _ C2 C3 C1). reflexivity.
Qed.
Lemma moves_exists h : moves h (snd (after h)).
Proof.
  induction h as [|[c args] h IH] using rev_ind; [constructor|]. rewrite after_app. destruct (after h) as [d k]. cbn [snd] in IH.
  destruct (list_eq_dec ascii_dec c (str "genmove")) as [->|C1]; [rewrite step_genmove; apply mv_move; auto|].
  destruct (list_eq_dec ascii_dec c (str "play")) as [->|C2]; [rewrite step_play; apply mv_move; auto|].
  destruct (list_eq_dec ascii_dec c (str "gomill-delayed_error")) as [->|C3]; [rewrite step_set|rewrite step_other by assumption]; apply mv_other; auto; discriminate.
Qed.
Lemma waiting_exists h : waiting h (fst (after h)).
Proof.
  induction h as [|[c args] h IH] using rev_ind; [constructor|]. pose proof (moves_exists h) as M. rewrite after_app. destruct (after h) as [d k]. cbn [snd fst] in *.
  destruct (list_eq_dec ascii_dec c (str "genmove")) as [->|C1].
  - rewrite step_genmove. cbn [fst]. destruct d as [[n r]|]; [|apply wt_nothing; exact IH].
    destruct (due_dec n (k + 1)) as [[E Y]|[E Y]]; rewrite E; [exact (wt_comes h n r args k IH M Y)|exact (wt_not_yet h n r args k IH M Y)].
  - destruct (list_eq_dec ascii_dec c (str "gomill-delayed_error")) as [->|C3].
    + rewrite step_set. cbn [fst]. destruct args as [|a r]; [apply wt_bad; [exact IH|discriminate]|].
      destruct (interpret_int_cases a) as [(n & E & Y)|(N & E)]; rewrite E; [exact (wt_set h d a n r IH Y)|].
      apply wt_bad; [exact IH|]. intros a' r' n H. injection H as <- <-. apply N.
    + destruct (list_eq_dec ascii_dec c (str "play")) as [->|C2]; [rewrite step_play; apply wt_other; auto; discriminate|].
      rewrite step_other by assumption. apply wt_other; assumption.
Qed.

Section Turns.
Variable tb : bytes.
Notation E := (test_engine tb).

Definition slot (p : player) : option (Z * list bytes) :=
  match delayed_error_move p with Some n => Some (n, delayed_error_args p) | None => None end.
Definition mem (p : player) : memory := (slot p, move_count p).

Lemma get_genmove : dget (str "genmove") (e_handlers E) = Some (User (handle_genmove tb)). Proof. reflexivity. Qed.
Lemma get_play : dget (str "play") (e_handlers E) = Some (User handle_play). Proof. reflexivity. Qed.
Lemma get_boardsize : dget (str "boardsize") (e_handlers E) = Some (User handle_nothing). Proof. reflexivity. Qed.
Lemma get_clear_board : dget (str "clear_board") (e_handlers E) = Some (User handle_nothing). Proof. reflexivity. Qed.
Lemma get_komi : dget (str "komi") (e_handlers E) = Some (User handle_nothing). Proof. reflexivity. Qed.
Lemma get_name : dget (str "name") (e_handlers E) = Some (User handle_name). Proof. reflexivity. Qed.
Lemma get_version : dget (str "version") (e_handlers E) = Some (User handle_version). Proof. reflexivity. Qed.
Lemma get_force : dget (str "gomill-force_error") (e_handlers E) = Some (User (handle_force_error tb)). Proof. reflexivity. Qed.
Lemma get_delayed : dget (str "gomill-delayed_error") (e_handlers E) = Some (User handle_delayed_error). Proof. reflexivity. Qed.
Lemma get_known : dget (str "known_command") (e_handlers E) = Some Known_command. Proof. reflexivity. Qed.
Lemma get_list : dget (str "list_commands") (e_handlers E) = Some List_commands. Proof. reflexivity. Qed.
Lemma get_protocol : dget (str "protocol_version") (e_handlers E) = Some Protocol_version. Proof. reflexivity. Qed.
Lemma get_quit : dget (str "quit") (e_handlers E) = Some Quit. Proof. reflexivity. Qed.
Lemma list_is : list_commands E = known. Proof. reflexivity. Qed.
Lemma keys_iff c : In c (map fst (e_handlers E)) <-> In c known.
Proof.
  replace (map fst (e_handlers E)) with
    [str "known_command"; str "list_commands"; str "protocol_version"; str "quit"; str "name"; str "version"; str "genmove"; str "play";
     str "boardsize"; str "clear_board"; str "komi"; str "gomill-force_error"; str "gomill-delayed_error"] by reflexivity.
  unfold known. generalize (str "known_command") (str "list_commands") (str "protocol_version") (str "quit") (str "name") (str "version") (str "genmove") (str "play")
     (str "boardsize") (str "clear_board") (str "komi") (str "gomill-force_error") (str "gomill-delayed_error").
  intros. cbn [In]. tauto.
Qed.
Lemma known_mem c : dmem c (e_handlers E) = true <-> In c known.
Proof.
  rewrite <- keys_iff. unfold dmem. destruct (dget c (e_handlers E)) eqn:H.
  - split; [intros _|reflexivity]. destruct (in_dec (list_eq_dec ascii_dec) c (map fst (e_handlers E))) as [I|N]; [exact I|].
    apply dget_None in N. congruence.
  - split; [discriminate|]. intros I. apply dget_None in H. contradiction.
Qed.

(** What handle_force_error does to the player and what it gives. *)
Lemma force_proof p args text :
  killed p = false -> raw_output p = [] ->
  exists p' r, handle_force_error tb p args = (p', r) /\ mem p' = mem p /\
    misbehaves tb args text (if killed p' then Died else
      match r with
      | GOk _ => Answered (raw_output p') false text false
      | GError m => Answered (raw_output p') true m false
      | GFatal m => Answered (raw_output p') true m true
      | GRaise m => Answered (raw_output p') true (clean_response (str "internal error" ++ char_lf :: m)) false
      | GQuit m => Answered (raw_output p') false m true
      end) /\
    match r with GOk x => x = None | GError m | GFatal m => clean_response m = m /\ m <> [] | _ => True end.
Proof.
  intros K R. unfold handle_force_error, force_error.
  destruct args as [|a r0].
  - replace (bytes_eqb (str "error") (str "error")) with true by reflexivity.
    exists p, (GError (str "forced GTP error")). split; [reflexivity|]. split; [reflexivity|]. rewrite K, R. split; [constructor|split; [reflexivity|discriminate]].
  - destruct (bytes_eqb_spec a (str "error")) as [->|N1].
    { exists p, (GError (str "forced GTP error")). split; [reflexivity|]. split; [reflexivity|]. rewrite K, R. split; [constructor|split; [reflexivity|discriminate]]. }
    destruct (bytes_eqb_spec a (str "exit")) as [->|N2].
    { exists p, (GFatal (str "forced GTP error; exiting")). split; [reflexivity|]. split; [reflexivity|]. rewrite K, R. split; [constructor|split; [reflexivity|discriminate]]. }
    destruct (bytes_eqb_spec a (str "internal")) as [->|N3].
    { exists p, (GRaise tb). split; [reflexivity|]. split; [reflexivity|]. rewrite K, R. split; [constructor|exact I]. }
    destruct (bytes_eqb_spec a (str "kill")) as [->|N4].
    { eexists. exists (GOk None). split; [reflexivity|]. split; [reflexivity|]. cbn [killed]. split; [constructor|reflexivity]. }
    destruct (bytes_eqb_spec a (str "protocol")) as [->|N5].
    { eexists. exists (GOk None). split; [reflexivity|]. split; [reflexivity|]. cbn [killed raw_output]. rewrite K, R. split; [constructor|reflexivity]. }
    exists p, (GError (str "unknown force_error argument")). split; [reflexivity|]. split; [reflexivity|]. rewrite K, R.
    split; [constructor|split; [reflexivity|discriminate]].
    intros [H|[H|[H|[H|[H|[]]]]]]; congruence.
Qed.

Lemma misbehaves_fun args text t t' : misbehaves tb args text t -> misbehaves tb args text t' -> t' = t.
Proof.
  assert (K : forall args t, misbehaves tb args text t ->
    t = match args with
        | [] => fails (str "forced GTP error")
        | a :: _ => if bytes_eqb a (str "error") then fails (str "forced GTP error")
                    else if bytes_eqb a (str "exit") then Answered [] true (str "forced GTP error; exiting") true
                    else if bytes_eqb a (str "internal") then fails (clean_response (str "internal error" ++ char_lf :: tb))
                    else if bytes_eqb a (str "kill") then Died
                    else if bytes_eqb a (str "protocol") then Answered (str "!! forced ill-formed GTP response" ++ [char_lf]) false text false
                    else fails (str "unknown force_error argument") end).
  { intros args0 t0 M. destruct M as [| | | | | |a r x N]; try reflexivity.
    destruct (bytes_eqb_spec a (str "error")) as [->|_]; [elim N; left; reflexivity|].
    destruct (bytes_eqb_spec a (str "exit")) as [->|_]; [elim N; right; left; reflexivity|].
    destruct (bytes_eqb_spec a (str "internal")) as [->|_]; [elim N; do 2 right; left; reflexivity|].
    destruct (bytes_eqb_spec a (str "kill")) as [->|_]; [elim N; do 3 right; left; reflexivity|].
    destruct (bytes_eqb_spec a (str "protocol")) as [->|_]; [elim N; do 4 right; left; reflexivity|].
    reflexivity. }
  intros A B. apply K in A, B. congruence.
Qed.
End Turns.
