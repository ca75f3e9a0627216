(** Proofs about the 'ringmaster' command: exit status and messages. *)
From Verif Require Import Base Bytes PyStr RingFilesModel CliModel CliSpec CliProofs CliStepProofs CliActProofs CliMainProofs.
Open Scope Z_scope.

Section Proofs.
Context {ST : Type}.
Notation event := (@event ST).
Notation history := (@history ST).
Notation call := (@call ST).
Variable w : @world ST.
Variable decodes : bytes -> bool.
Variable comp_vn : Z.
Variable brief traceback : exn -> bytes.
Notation verdict := (verdict (ST:=ST) brief traceback).
Notation plain := (plain traceback).
Notation refused := (refused decodes comp_vn traceback).
Variable control : bytes.
Variable o : options.
Variable st0 : ST.

Definition outcome_ok (c : command) (h : history) (n : Z) : Prop :=
  said h = flat_map (said_of c o (skipped h)) h /\
  (forall h1 q r h2, h = h1 ++ Called q r :: h2 -> ready comp_vn c o q h1) /\
  (exists codes p, planned o codes c p /\ prefix (calls h) (opening ++ p) /\ (n = 0 -> calls h = opening ++ p)) /\
  ((exists h1 q e h2, h = h1 ++ Called q (Raise e) :: h2 /\ raises h1 = [] /\ calls h2 = [] /\ (n, complaints h) = verdict c q e) \/
   (raises h = [] /\ n = 0 /\ complaints h = []) \/
   (raises h = [] /\ exists h1 cs, h = h1 ++ map Complained cs /\ complaints h1 = [] /\ refused c control h1 (n, cs))).

Lemma complained_reads cs : calls (map (@Complained ST) cs) = [] /\ said (map (@Complained ST) cs) = [] /\
  complaints (map (@Complained ST) cs) = cs /\ raises (map (@Complained ST) cs) = [] /\ (forall c k, flat_map (said_of c o k) (map (@Complained ST) cs) = []) /\
  skipped (map (@Complained ST) cs) = false.
Proof.
  induction cs as [|t cs (I1 & I2 & I3 & I4 & I5 & I6)]; [repeat split|].
  cbn [map]. change (@Complained ST t :: map Complained cs) with ([@Complained ST t] ++ map Complained cs).
  rewrite calls_app, said_app, complaints_app, raises_app, I1, I2, I3, I4. split; [reflexivity|]. split; [reflexivity|]. split; [reflexivity|]. split; [reflexivity|].
  split; [intros; rewrite flat_map_app, I5; reflexivity|]. exact I6.
Qed.
Lemma not_called cs l1 q r l2 : map (@Complained ST) cs <> l1 ++ Called q r :: l2.
Proof. intros E. pose proof (f_equal calls E) as F. rewrite (proj1 (complained_reads cs)), calls_app in F. destruct (calls l1); discriminate F. Qed.
Lemma skipped_app (h1 h2 : history) : skipped (h1 ++ h2) = skipped h1 || skipped h2. Proof. apply existsb_app. Qed.
Lemma skipped_calls (l : history) : ~ In InitRingmaster (calls l) -> skipped l = false.
Proof.
  induction l as [|v l IH]; [reflexivity|]. intros N. change (v :: l) with ([v] ++ l) in *. rewrite calls_app in N. rewrite skipped_app.
  rewrite IH by (intros I1; apply N; apply in_or_app; right; exact I1). rewrite orb_false_r.
  destruct v as [q r|t|t]; [|reflexivity|reflexivity]. destruct q; try reflexivity. exfalso. apply N. left. reflexivity.
Qed.
Lemma planned_no_init codes c p : planned o codes c p -> ~ In (InitRingmaster : call) p.
Proof.
  assert (NM : forall d l, ~ In (InitRingmaster : call) (map (fun y => CheckPlayer y d) l)) by (intros d l IN; apply in_map_iff in IN; destruct IN as (? & ? & _); discriminate).
  intros P IN. destruct P as [ck l CK L| | | | | |]; cbn in IN.
  2,3,4,5,7: repeat (destruct IN as [IN|IN]; [discriminate IN|]); exact IN.
  - destruct IN as [IN|IN]; [discriminate|]. apply in_app_or in IN. destruct IN as [IN|IN]; [exact (NM _ _ IN)|]. apply in_app_or in IN.
    destruct IN as [IN|IN]; [|cbn in IN; repeat (destruct IN as [IN|IN]; [discriminate IN|]); exact IN].
    destruct L as [->|(v & st & ->)]; cbn in IN; repeat (destruct IN as [IN|IN]; [discriminate IN|]); exact IN.
  - destruct IN as [IN|IN]; [discriminate|]. exact (NM _ _ IN).
Qed.

Lemma plain_nonzero e : fst (plain e) <> 0. Proof. destruct e; discriminate. Qed.
Lemma verdict_nonzero c q e : fst (verdict c q e) <> 0.
Proof. destruct q; cbn; destruct e; try discriminate; cbn; destruct c; discriminate. Qed.

Lemma finish_plain h e : (match e with
  | XRing t => (h ++ [Complained (str "ringmaster: " ++ t ++ nl)], 1)
  | XKeyboard => (h, 3)
  | XInternal t => (h ++ [Complained (str "ringmaster: internal error" ++ nl ++ t ++ nl)], 4)
  | e => (h ++ [@Complained ST (str "ringmaster: internal error" ++ nl ++ traceback e)], 4)
  end) = (h ++ map Complained (snd (plain e)), fst (plain e)).
Proof. destruct e; cbn; rewrite ?app_nil_r; reflexivity. Qed.

Definition finish (x : history * outcome (option Z)) : history * Z :=
  match x with
  | (h, Good None) => (h, 0)
  | (h, Good (Some n)) => (h, n)
  | (h, Raise e) => (h ++ map Complained (snd (plain e)), fst (plain e))
  end.
Lemma perform_unfold c : perform w decodes comp_vn brief traceback c control o =
  finish (match open_program w decodes brief traceback control [] with
          | (h, Good skip) => action w comp_vn traceback c skip o h
          | (h, Raise e) => (h, Raise e)
          end).
Proof.
  assert (F : forall x : history * outcome (option Z), (match x with
    | (h, Good None) => (h, 0)
    | (h, Good (Some n)) => (h, n)
    | (h, Raise (XRing t)) => (h ++ [Complained (str "ringmaster: " ++ t ++ nl)], 1)
    | (h, Raise XKeyboard) => (h, 3)
    | (h, Raise (XInternal t)) => (h ++ [Complained (str "ringmaster: internal error" ++ nl ++ t ++ nl)], 4)
    | (h, Raise e) => (h ++ [Complained (str "ringmaster: internal error" ++ nl ++ traceback e)], 4)
    end) = finish x).
  { intros [h [[n|]|e]]; [reflexivity|reflexivity|]. unfold finish. rewrite <- finish_plain. destruct e; reflexivity. }
  unfold perform. rewrite F. f_equal. unfold open_program, bind, ask.
  destruct (w ControlExists []) as [[|]|e]; reflexivity.
Qed.

Lemma perform_ok c : let '(h, n) := perform w decodes comp_vn brief traceback c control o in outcome_ok c h n.
Proof.
  rewrite perform_unfold.
  destruct (open_program w decodes brief traceback control []) as [h0 [skip|e]] eqn:OP.
  - pose proof (ends_open w decodes comp_vn brief traceback c control o (said_of c o skip) (silent_opening_of o c skip)) as EO.
    rewrite OP in EO. destruct EO as (l0 & E0 & C0 & S0 & J0 & R0 & P0 & SK & IN). cbn [fst snd app] in *. subst l0.
    destruct (act_all w decodes comp_vn brief traceback control o st0 c skip h0 IN) as (l & E & C & S & J & (codes & p & PL & PR & PE) & H).
    destruct (action w comp_vn traceback c skip o h0) as [h1 r]. cbn [fst snd] in *. subst h1.
    assert (SL : skipped l = false).
    { apply skipped_calls. intros I1. destruct PR as (m & PR). apply (planned_no_init codes c p PL). rewrite PR. apply in_or_app. auto. }
    assert (SK2 : forall cs, skipped ((h0 ++ l) ++ map (@Complained ST) cs) = skip).
    { intros cs. rewrite !skipped_app, SL, SK. destruct (complained_reads cs) as (_ & _ & _ & _ & _ & ->). rewrite !orb_false_r. reflexivity. }
    assert (SAY : forall cs, said ((h0 ++ l) ++ map (@Complained ST) cs) = flat_map (said_of c o skip) ((h0 ++ l) ++ map Complained cs)).
    { intros cs. destruct (complained_reads cs) as (_ & X2 & _ & _ & X5 & _). rewrite !said_app, !flat_map_app, X2, X5, S0, S. reflexivity. }
    assert (RD : forall cs h1 q r1 h2, (h0 ++ l) ++ map (@Complained ST) cs = h1 ++ Called q r1 :: h2 -> ready comp_vn c o q h1).
    { intros cs h1 q r1 h2 X. destruct (app_split _ _ _ _ _ X) as [(m & M)|(m & -> & M)]; [|destruct (not_called _ _ _ _ _ M)].
      destruct (app_split _ _ _ _ _ M) as [(m1 & M1)|(m1 & -> & M1)]; [exact (J0 _ _ _ _ M1)|exact (J _ _ _ _ M1)]. }
    assert (CALLS : forall cs, calls ((h0 ++ l) ++ map (@Complained ST) cs) = opening ++ calls l).
    { intros cs. rewrite !calls_app, (proj1 (complained_reads cs)), app_nil_r, P0. reflexivity. }
    assert (PRE : prefix (opening ++ calls l) (opening ++ p)) by (destruct PR as (m & ->); exists m; rewrite app_assoc; reflexivity).
    assert (COM : forall cs, complaints ((h0 ++ l) ++ map (@Complained ST) cs) = cs).
    { intros cs. destruct (complained_reads cs) as (_ & _ & X3 & _). rewrite !complaints_app, C0, C, X3. reflexivity. }
    assert (NN : h0 ++ l = (h0 ++ l) ++ map (@Complained ST) []) by (cbn; rewrite app_nil_r; reflexivity).
    destruct r as [[n|]|e]; cbn [finish].
    + rewrite NN. destruct H as (l1 & q & e & l2 & EL & R1 & CL2 & V). split; [rewrite SK2; apply SAY|]. split; [apply RD|].
      split; [exists codes, p; rewrite CALLS; split; [exact PL|]; split; [exact PRE|]|].
      { intros ->. exfalso. apply (verdict_nonzero c q e). rewrite <- V. reflexivity. }
      left. exists (h0 ++ l1), q, e, l2. rewrite COM, <- NN, EL, <- app_assoc, raises_app, R0, R1. auto.
    + rewrite NN. split; [rewrite SK2; apply SAY|]. split; [apply RD|].
      split; [exists codes, p; rewrite CALLS; split; [exact PL|]; split; [exact PRE|intros _; rewrite (PE eq_refl); reflexivity]|].
      right. left. rewrite COM, <- NN, raises_app, R0, H. auto.
    + split; [rewrite SK2; apply SAY|]. split; [apply RD|].
      split; [exists codes, p; rewrite CALLS; split; [exact PL|]; split; [exact PRE|intros Z0; destruct (plain_nonzero e Z0)]|].
      destruct (complained_reads (snd (plain e))) as (X1 & _ & _ & X4 & _).
      destruct H as [(l1 & q & e' & EL & R1 & V)|(R & RF)].
      * left. exists (h0 ++ l1), q, e', (map Complained (snd (plain e))). rewrite COM, EL, <- !app_assoc, raises_app, R0, R1.
        split; [reflexivity|]. split; [reflexivity|]. split; [exact X1|]. rewrite <- V. destruct (plain e); reflexivity.
      * right. right. rewrite !raises_app, R0, R, X4. split; [reflexivity|]. exists (h0 ++ l), (snd (plain e)).
        rewrite complaints_app, C0, C. split; [reflexivity|]. split; [reflexivity|]. destruct (plain e); exact RF.
  - pose proof (ends_open w decodes comp_vn brief traceback c control o (said_of c o (skipped (h0 ++ map Complained (snd (plain e))))) (silent_opening_of o c _)) as EO.
    rewrite OP in EO. destruct EO as (l0 & E0 & C0 & S0 & J0 & (p & -> & PR) & H). cbn [fst snd app] in *. subst l0. cbn [finish].
    destruct (complained_reads (snd (plain e))) as (X1 & X2 & X3 & X4 & X5 & X6).
    split; [rewrite said_app, flat_map_app, X2, X5, S0; reflexivity|].
    split. { intros h1 q r1 h2 X. destruct (app_split _ _ _ _ _ X) as [(m & M)|(m & -> & M)]; [exact (J0 _ _ _ _ M)|destruct (not_called _ _ _ _ _ M)]. }
    split.
    { assert (PP : exists codes (p : list call), planned o codes c p).
      { exists []. destruct c; eexists.
        - exact (plan_run o [] [] [StatusExists; SetClean] (or_introl eq_refl) (or_introl eq_refl)).
        - constructor.
        - exact (plan_show o [] 0 st0).
        - exact (plan_report o [] 0 st0).
        - constructor.
        - constructor.
        - constructor. }
      destruct PP as (codes & p & PL). exists codes, p. split; [exact PL|]. split; [|intros Z0; destruct (plain_nonzero e Z0)].
      rewrite calls_app, X1, app_nil_r. destruct PR as (m & PR). exists (m ++ p). rewrite PR, app_assoc. reflexivity. }
    destruct H as [(l1 & q & e' & EL & R1 & V)|(R & RF)].
    + left. exists l1, q, e', (map Complained (snd (plain e))). rewrite complaints_app, X3, C0, EL, <- app_assoc.
      split; [reflexivity|]. split; [exact R1|]. split; [exact X1|]. cbn [app]. rewrite <- V. destruct (plain e); reflexivity.
    + right. right. rewrite raises_app, R, X4. split; [reflexivity|]. exists h0, (snd (plain e)). split; [reflexivity|]. split; [exact C0|]. destruct (plain e); exact RF.
Qed.

End Proofs.

(** The arguments. *)
Lemma find_action_named name c : find_action name = Some c <-> In (name, c) named.
Proof.
  unfold find_action, named. split.
  - repeat (match goal with |- context [bytes_eqb name ?t] => destruct (bytes_eqb_spec name t) as [->|]; [intros E; injection E as <-; cbn [In]; tauto|] end). discriminate.
  - cbn [In]. intros H. repeat (destruct H as [H|H]; [injection H as <- <-; reflexivity|]). destruct H.
Qed.
