(** Proofs about interactive sessions (C88). *)
From Verif Require Import Base Bytes EngineModel EngineProofs GtpModel GtpSpec GtpProofs GtpChannelProofs GtpSessionProofs InteractiveModel InteractiveSpec.

Definition chop (l : bytes) : bytes := if ceqb (last l char_sp) char_lf then removelast l else l.

Lemma chop_line u : chop (u ++ [char_lf]) = u.
Proof. unfold chop. rewrite last_last, removelast_last. reflexivity. Qed.
Lemma last_In (l : bytes) d : l <> [] -> In (last l d) l.
Proof.
  intros N. destruct (exists_last N) as (u & x & ->). rewrite last_last. apply in_or_app. right. left. reflexivity.
Qed.
Lemma chop_nolf u : ~ In char_lf u -> chop u = u.
Proof.
  intros N. unfold chop. destruct u as [|c u]; [reflexivity|].
  destruct (ceqb_spec (last (c :: u) char_sp) char_lf) as [E|]; [|reflexivity].
  exfalso. apply N. rewrite <- E. apply last_In. discriminate.
Qed.
Lemma chop_cases l : chop l = l \/ l = chop l ++ [char_lf].
Proof.
  unfold chop. destruct (ceqb_spec (last l char_sp) char_lf) as [E|]; [|left; reflexivity]. right.
  destruct l as [|c l]; [discriminate|]. rewrite <- E. apply app_removelast_last. discriminate.
Qed.

Lemma preprocess_newline l : preprocess_line (l ++ [char_lf]) = preprocess_line l.
Proof.
  unfold preprocess_line. f_equal. induction l as [|c l IH]; [reflexivity|]. cbn [app before_hash].
  destruct (ceqb c "#"%char); [reflexivity|]. cbn [filter]. rewrite IH. reflexivity.
Qed.

Lemma read_raw_chop input : read_raw input = match read_file input with Some (l, rest) => Some (chop l, rest) | None => None end.
Proof. unfold read_raw, read_file, chop. destruct (readline input) as [[|c l] rest]; reflexivity. Qed.

Section Proofs.
Context {S : Type}.
Variable e : engine S.

Lemma handle_chop s l : handle_line e s (chop l) = handle_line e s l.
Proof.
  destruct (chop_cases l) as [-> | E]; [reflexivity|]. assert (preprocess_line l = preprocess_line (chop l)) as Q by (rewrite E at 1; apply preprocess_newline). unfold handle_line. rewrite Q. reflexivity.
Qed.

Lemma loop_same fuel : forall s input ws, loop e fuel read_raw s input ws = loop e fuel read_file s input ws.
Proof.
  induction fuel as [|f IH]; intros s input ws; [reflexivity|]. cbn [loop]. rewrite read_raw_chop.
  destruct (read_file input) as [[l rest]|]; [|reflexivity]. rewrite handle_chop.
  destruct (handle_line e s l) as [s' [[[t|] []]|x]]; try reflexivity; [|apply IH].
  destruct ws as [|[] ws]; try reflexivity; rewrite IH; reflexivity.
Qed.

Lemma loop_heard input lines : file_lines input lines -> forall fuel s ws, (List.length input < fuel)%nat ->
  exists s' rs why, loop e fuel read_file s input ws = (s', List.concat rs, why) /\ heard e s lines ws s' rs why.
Proof.
  assert (forall l rest ls fuel s ws, l <> [] ->
    (forall s ws, exists s' rs why, loop e fuel read_file s rest ws = (s', List.concat rs, why) /\ heard e s ls ws s' rs why) ->
    readline (l ++ rest) = (l, rest) ->
    exists s' rs why, loop e (Datatypes.S fuel) read_file s (l ++ rest) ws = (s', List.concat rs, why) /\ heard e s (l :: ls) ws s' rs why) as ONE.
  { intros l rest ls fuel s ws N IH R. cbn [loop]. unfold read_file at 1. rewrite R. destruct l as [|c l]; [congruence|].
    destruct (reads_dec (c :: l)) as [(id & command & args & RD)|RD].
    - rewrite (handle_line_reads e s _ _ _ _ RD). destruct (run_command e s command args) as [s1 [[x t] b]] eqn:RC.
      assert (hd WOk ws = WOk -> exists s' rs why,
        (if b then (s1, framed x id t, AtEnd) else let '(s'', w, y) := loop e fuel read_file s1 rest (tl ws) in (s'', framed x id t ++ w, y))
          = (s', List.concat rs, why) /\ heard e s ((c :: l) :: ls) ws s' rs why) as GO.
      { intros W. destruct b.
        - exists s1, [framed x id t], AtEnd. split; [cbn; rewrite app_nil_r; reflexivity|]. eapply hd_last; eassumption.
        - destruct (IH s1 (tl ws)) as (s' & rs & why & E & H). rewrite E. exists s', (framed x id t :: rs), why.
          split; [reflexivity|]. eapply hd_command; eassumption. }
      destruct ws as [|[] ws]; [apply GO; reflexivity|apply GO; reflexivity|..].
      + exists s1, [], Disconnected. split; [reflexivity|]. eapply hd_pipe; eassumption.
      + exists s1, [], WriteError. split; [reflexivity|]. eapply hd_error; eassumption.
    - rewrite handle_line_silent by exact RD. destruct (IH s ws) as (s' & rs & why & E & H). rewrite E. exists s', rs, why.
      split; [reflexivity|]. apply hd_ignored; assumption. }
  induction 1 as [|l NE NL|l rest ls NL F IH]; intros fuel s ws L.
  - destruct fuel; [cbn in L; lia|]. exists s, [], AtEof. split; [reflexivity|constructor].
  - destruct fuel; [lia|]. pose proof (ONE l [] [] fuel s ws NE) as X. rewrite app_nil_r in X. apply X; [|apply readline_nolf; exact NL].
    intros s0 ws0. destruct fuel; [destruct l; [congruence|cbn in L; lia]|]. exists s0, [], AtEof. split; [reflexivity|constructor].
  - destruct fuel; [lia|]. apply ONE; [destruct l; discriminate| |apply readline_line; exact NL].
    intros s0 ws0. apply IH. rewrite !app_length in L. cbn in L. lia.
Qed.

Lemma session_loop fuel : forall s input ws, Forall (eq WOk) ws ->
  session fuel e s input = (let '(s', w, why) := loop e fuel read_file s input ws in
    (s', w, match why with AtEof => Ok false | AtEnd => Ok true | Raises x => Err x | _ => Err OutOfFuel end)).
Proof.
  induction fuel as [|f IH]; intros s input ws W; [reflexivity|]. cbn [session loop]. unfold read_file at 1.
  destruct (readline input) as [[|c l] rest]; [reflexivity|].
  destruct (handle_line e s (c :: l)) as [s' [[[t|] []]|x]]; try reflexivity.
  - destruct W as [|y ws <- W]; reflexivity.
  - destruct W as [|y ws <- W]; cbn [tl].
    + rewrite (IH s' rest [] (Forall_nil _)). destruct (loop e f read_file s' rest []) as [[s2 w] y]. reflexivity.
    + rewrite (IH s' rest ws W). destruct (loop e f read_file s' rest ws) as [[s2 w] y]. reflexivity.
  - rewrite (IH s' rest ws W). destruct (loop e f read_file s' rest ws) as [[s2 w] y]. reflexivity.
Qed.

Lemma lines_prefix input lines : file_lines input lines -> forall fuel s ws, (List.length input < fuel)%nat ->
  exists k, lines_read e fuel s input ws = firstn k (map chop lines) /\
    (snd (loop e fuel read_file s input ws) = AtEof -> lines_read e fuel s input ws = map chop lines).
Proof.
  assert (forall l rest ls fuel s ws, l <> [] ->
    (forall s ws, exists k, lines_read e fuel s rest ws = firstn k (map chop ls) /\
       (snd (loop e fuel read_file s rest ws) = AtEof -> lines_read e fuel s rest ws = map chop ls)) ->
    readline (l ++ rest) = (l, rest) ->
    exists k, lines_read e (Datatypes.S fuel) s (l ++ rest) ws = firstn k (map chop (l :: ls)) /\
      (snd (loop e (Datatypes.S fuel) read_file s (l ++ rest) ws) = AtEof -> lines_read e (Datatypes.S fuel) s (l ++ rest) ws = map chop (l :: ls))) as ONE.
  { intros l rest ls fuel s ws N IH R. cbn [loop lines_read]. 
    assert (read_file (l ++ rest) = Some (l, rest)) as RF by (unfold read_file; rewrite R; destruct l; [congruence|reflexivity]).
    rewrite !read_raw_chop, !RF, handle_chop.
    destruct (handle_line e s l) as [s' [[[t|] []]|x]]; cbn [snd map].
    - exists 1%nat. split; [reflexivity|]. destruct ws as [|[] ws]; discriminate.
    - destruct ws as [|[] ws]; cbn [tl].
      + destruct (IH s' []) as (k & E & A). exists (Datatypes.S k). split; [cbn [firstn]; rewrite E; reflexivity|]. intros H. f_equal. apply A.
        destruct (loop e fuel read_file s' rest []) as [[s2 w] y]. exact H.
      + destruct (IH s' ws) as (k & E & A). exists (Datatypes.S k). split; [cbn [firstn]; rewrite E; reflexivity|]. intros H. f_equal. apply A.
        destruct (loop e fuel read_file s' rest ws) as [[s2 w] y]. exact H.
      + exists 1%nat. split; [reflexivity|discriminate].
      + exists 1%nat. split; [reflexivity|discriminate].
    - exists 1%nat. split; [reflexivity|discriminate].
    - destruct (IH s' ws) as (k & E & A). exists (Datatypes.S k). split; [cbn [firstn]; rewrite E; reflexivity|]. intros H. f_equal. apply A. exact H.
    - exists 1%nat. split; [reflexivity|discriminate]. }
  induction 1 as [|l NE NL|l rest ls NL F IH]; intros fuel s ws L.
  - destruct fuel; [cbn in L; lia|]. exists 0%nat. split; reflexivity.
  - destruct fuel; [lia|]. pose proof (ONE l [] [] fuel s ws NE) as X. rewrite app_nil_r in X. apply X; [|apply readline_nolf; exact NL].
    intros s0 ws0. destruct fuel; [destruct l; [congruence|cbn in L; lia]|]. exists 0%nat. split; reflexivity.
  - destruct fuel; [lia|]. apply ONE; [destruct l; discriminate| |apply readline_line; exact NL].
    intros s0 ws0. apply IH. rewrite !app_length in L. cbn in L. lia.
Qed.

(** ** Completion *)
Lemma filter_in_order (f : bytes -> bool) l : in_order l -> in_order (filter f l).
Proof.
  induction l as [|x l IH]; intros H; [exact I|]. destruct H as [H1 H2]. cbn [filter]. destruct (f x); [|exact (IH H2)].
  split; [|exact (IH H2)]. intros y Y. apply filter_In in Y as [Y _]. exact (H1 y Y).
Qed.

End Proofs.
