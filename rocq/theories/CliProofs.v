(** Proofs about the 'ringmaster' command: the histories of its parts. *)
From Verif Require Import Base Bytes PyStr RingFilesModel CliModel CliSpec.
Open Scope Z_scope.

Section Proofs.
Context {ST : Type}.
Notation event := (@event ST).
Notation history := (@history ST).
Notation call := (@call ST).
Variable w : @world ST.

(** The events of a check that succeeds. *)
Definition fine (d : bool) (x : bytes * list bytes) : history :=
  (if d then [] else [Said (str "checking player " ++ fst x)]) ++
  [Called (CheckPlayer (fst x) d) (Good (snd x) : outcome (answer (CheckPlayer (fst x) d)))] ++
  (if d then [] else map Said (snd x)).
Definition fines (d : bool) (l : list (bytes * list bytes)) : history := flat_map (fine d) l.
(** ... and of one that fails. *)
Definition broken (d : bool) (code : bytes) (e : exn) : history :=
  (if d then [] else [Said (str "checking player " ++ code)]) ++
  [Called (CheckPlayer code d) (Raise e)] ++
  match e with XCheck t => [Said (str "player " ++ code ++ str " failed startup check:" ++ nl ++ t)] | _ => [] end.

Inductive checked (d : bool) (l : list bytes) : history -> outcome bool -> Prop :=
| checked_all ps : map fst ps = l -> checked d l (fines d ps) (Good true)
| checked_until ps code rest e : l = map fst ps ++ code :: rest ->
    checked d l (fines d ps ++ broken d code e) (match e with XCheck _ => Good false | _ => Raise e end).

Lemma each_said l : forall h, each (ST:=ST) l say h = (h ++ map Said l, Good tt).
Proof.
  induction l as [|a l IH]; intros h; cbn [each map]; [rewrite app_nil_r; reflexivity|].
  unfold bind, say at 1. rewrite IH, <- app_assoc. reflexivity.
Qed.

Lemma check_each_history d l : forall h, exists evs r, check_each w l d h = (h ++ evs, r) /\ checked d l evs r.
Proof.
  induction l as [|code l IH]; intros h.
  - exists [], (Good true). split; [cbn; rewrite app_nil_r; reflexivity|]. exact (checked_all d [] [] eq_refl).
  - assert (Q : forall h1, (if d then ret tt else say (str "checking player " ++ code)) h1 =
                (h1 ++ (if d then [] else [@Said ST (str "checking player " ++ code)]), Good tt))
      by (intros h1; destruct d; [unfold ret; rewrite app_nil_r|]; reflexivity).
    set (h1 := h ++ (if d then [] else [@Said ST (str "checking player " ++ code)])).
    destruct (w (CheckPlayer code d) h1) as [msgs|e] eqn:E.
    + assert (Q2 : forall h2, (if d then ret tt else each msgs say) h2 = (h2 ++ (if d then [] else map (@Said ST) msgs), Good tt))
        by (intros h2; destruct d; [unfold ret; rewrite app_nil_r; reflexivity|apply each_said]).
      destruct (IH (h ++ fine d (code, msgs))) as (evs & r & E2 & CK).
      exists (fine d (code, msgs) ++ evs), r. split.
      * rewrite app_assoc, <- E2. cbn [check_each]. unfold bind at 1. unfold when at 1. destruct d; cbn [negb].
        -- cbn [ret]. unfold bind at 1, catch, bind at 1, ask. change h1 with (h ++ []) in E. rewrite app_nil_r in E. rewrite E. cbn.
           rewrite <- ?app_assoc. reflexivity.
        -- unfold say at 1. unfold bind at 1, catch, bind at 1, ask. change (h ++ [Said (str "checking player " ++ code)]) with h1. rewrite E. cbn [ret].
           unfold bind, when. cbn [negb]. rewrite each_said. unfold fine, h1. cbn [fst snd]. rewrite <- !app_assoc. reflexivity.
      * destruct CK as [ps P|ps c2 rest e2 P].
        -- exact (checked_all d _ ((code, msgs) :: ps) (f_equal (cons code) P)).
        -- replace (fine d (code, msgs) ++ fines d ps ++ broken d c2 e2) with (fines d ((code, msgs) :: ps) ++ broken d c2 e2)
             by (unfold fines; cbn [flat_map]; rewrite <- app_assoc; reflexivity).
           apply (checked_until d _ ((code, msgs) :: ps) c2 rest e2). cbn [map fst app]. f_equal. exact P.
    + exists (broken d code e), (match e with XCheck _ => Good false | _ => Raise e end). split.
      * cbn [check_each]. unfold bind at 1. unfold when at 1. unfold broken.
        destruct d; cbn [negb].
        -- cbn [ret]. unfold bind at 1, catch, bind at 1, ask. change h1 with (h ++ []) in E. rewrite app_nil_r in E. rewrite E.
           destruct e; unfold raise, say, bind, ret; rewrite <- ?app_assoc; reflexivity.
        -- unfold say at 1. unfold bind at 1, catch, bind at 1, ask. change (h ++ [Said (str "checking player " ++ code)]) with h1. rewrite E.
           unfold h1. destruct e; unfold raise, say, bind, ret; rewrite <- ?app_assoc; reflexivity.
      * exact (checked_until d (code :: l) [] code l e eq_refl).
Qed.

(** Reading those histories. *)
Lemma calls_app h1 h2 : calls (ST:=ST) (h1 ++ h2) = calls h1 ++ calls h2. Proof. apply flat_map_app. Qed.
Lemma said_app h1 h2 : said (ST:=ST) (h1 ++ h2) = said h1 ++ said h2. Proof. apply flat_map_app. Qed.
Lemma complaints_app h1 h2 : complaints (ST:=ST) (h1 ++ h2) = complaints h1 ++ complaints h2. Proof. apply flat_map_app. Qed.
Lemma raises_app h1 h2 : raises (ST:=ST) (h1 ++ h2) = raises h1 ++ raises h2. Proof. apply flat_map_app. Qed.

Lemma map_said (l : list bytes) :
  calls (map (@Said ST) l) = [] /\ said (map (@Said ST) l) = l /\ complaints (map (@Said ST) l) = [] /\ raises (map (@Said ST) l) = [] /\
  (forall c o k, flat_map (said_of c o k) (map (@Said ST) l) = []).
Proof.
  induction l as [|a l (I1 & I2 & I3 & I4 & I5)]; [repeat split|].
  cbn [map]. change (@Said ST a :: map Said l) with ([@Said ST a] ++ map Said l).
  rewrite calls_app, said_app, complaints_app, raises_app, I1, I2, I3, I4. repeat split. intros. rewrite flat_map_app, I5. reflexivity.
Qed.
Lemma fine_reads c o k d x :
  calls (fine d x) = [CheckPlayer (fst x) d] /\ said (fine d x) = flat_map (said_of c o k) (fine d x) /\
  complaints (fine d x) = [] /\ raises (fine d x) = [].
Proof.
  destruct (map_said (snd x)) as (I1 & I2 & I3 & I4 & I5). destruct x as [code msgs]. cbn [fst snd] in *. unfold fine. cbn [fst snd].
  rewrite !calls_app, !said_app, !complaints_app, !raises_app, !flat_map_app.
  destruct d; [repeat split; cbn; rewrite ?app_nil_r; reflexivity|].
  rewrite I1, I2, I3, I4, I5. cbn. rewrite ?app_nil_r. repeat split.
Qed.
Lemma fines_reads c o k d l :
  calls (fines d l) = map (fun c => CheckPlayer c d) (map fst l) /\ said (fines d l) = flat_map (said_of c o k) (fines d l) /\
  complaints (fines d l) = [] /\ raises (fines d l) = [].
Proof.
  induction l as [|x l (I1 & I2 & I3 & I4)]; [repeat split|]. destruct (fine_reads c o k d x) as (F1 & F2 & F3 & F4).
  unfold fines in *. cbn [flat_map map]. rewrite calls_app, said_app, complaints_app, raises_app, flat_map_app, I1, I2, I3, I4, F1, F2, F3, F4. repeat split.
Qed.
Lemma broken_reads c o k d code e :
  calls (broken d code e) = [CheckPlayer code d] /\
  said (broken d code e) ++ (match c, e with Run, XCheck _ => [str "(use the 'check' command to see stderr output)"] | _, _ => [] end) = flat_map (said_of c o k) (broken d code e) /\
  complaints (broken d code e) = [] /\ raises (broken d code e) = [(CheckPlayer code d, e)].
Proof. unfold broken. destruct c, d, e; cbn; rewrite ?app_nil_r; repeat split. Qed.
End Proofs.
