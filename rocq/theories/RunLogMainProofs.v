From Verif Require Import Base Bytes PyStr Dict CommonModel RingModel ReportModel RunLogModel RunLogSpec RunLogProofs RunLogRunProofs.
Open Scope Z_scope.

Section Core.
Context {C J : Type}.
Implicit Types g : ring C J.

(** [m], [v]: max_games and the void games at the start; [n]: how often a game was asked for. *)
Record core (m : option Z) (v n : Z) (g : ring C J) (reason : bytes) (l : list entry) : Prop := mkCore {
  k_prog : forall id, dmem id (r_prog g) = true <-> open_in l id;
  k_nodup : NoDup (map fst (r_prog g));
  k_halt : if r_stopping g then In (LHalt reason) l /\ halts_once l else halt_free l;
  k_max : r_stopping g = false -> r_max g = option_map (fun k => k - n) m;
  k_left : forall k, m = Some k -> 0 <= k -> exists i, r_max g = Some i /\ 0 <= i /\ starts l + i <= k;
  k_void : r_void g = v + voids l
}.

Definition quiet_entry (e : entry) : Prop :=
  match e with LStart _ _ _ | LResponse _ | LVoid _ _ | LHalt _ => False | _ => True end.
Lemma quiet_plain es : Forall quiet_entry es -> Forall plain es /\ halt_free es /\ start_free es /\ starts es = 0 /\ voids es = 0.
Proof.
  intros F. split; [|split; [|split; [|split]]].
  - apply (Forall_impl plain (P := quiet_entry)); [|exact F]. intros []; exact (fun H => H) || exact (fun _ => I).
  - intros r I. rewrite Forall_forall in F. exact (F _ I).
  - intros id b w I. rewrite Forall_forall in F. exact (F _ I).
  - induction F as [|e l Q F IH]; [reflexivity|]. change (e :: l) with ([e] ++ l). rewrite starts_app, IH. destruct e; try reflexivity; destruct Q.
  - induction F as [|e l Q F IH]; [reflexivity|]. change (e :: l) with ([e] ++ l). rewrite voids_app, IH. destruct e; try reflexivity; destruct Q.
Qed.

Lemma core_quiet m v n g reason l es : core m v n g reason l -> Forall quiet_entry es -> core m v n g reason (l ++ es).
Proof.
  intros [P N H M L V] F. destruct (quiet_plain es F) as (PL & HF & SF & S0 & V0). constructor; [|exact N| |exact M| |].
  - intros id. rewrite open_plain by exact PL. exact (P id).
  - destruct (r_stopping g).
    + destruct H as [A B]. split; [apply in_or_app; left; exact A|]. apply halts_more; assumption.
    + intros r I. apply in_app_or in I. destruct I as [I|I]; [exact (H r I)|exact (HF r I)].
  - intros k E K. destruct (L k E K) as (i & A & B & D). exists i. rewrite starts_app, S0. split; [exact A|]. split; [exact B|lia].
  - rewrite voids_app, V0, V. lia.
Qed.

(** Changing what the ring has, but not these parts. *)
Lemma core_ring m v n g g' reason l : core m v n g reason l ->
  r_prog g' = r_prog g -> r_stopping g' = r_stopping g -> r_max g' = r_max g -> r_void g' = r_void g -> core m v n g' reason l.
Proof. intros [P N H M L V] E1 E2 E3 E4. constructor; rewrite ?E1, ?E2, ?E3, ?E4; assumption. Qed.

Lemma core_halts m v n n' g reason r l : core m v n g reason l -> r_stopping g = false -> core m v n' (halt g) r (l ++ [LHalt r]).
Proof.
  intros [P N H M L V] S. rewrite S in H. constructor; cbn [halt r_prog r_stopping r_max r_void].
  - intros id. rewrite open_plain by (constructor; [exact I|constructor]). exact (P id).
  - exact N.
  - split; [apply in_or_app; right; left; reflexivity|]. apply halts_free; [exact H|].
    intros l1 r' l2 E. destruct l1 as [|x [|y l1]]; [|discriminate|discriminate]. injection E as _ <-. split; [intros ? []|intros ? ? ? []].
  - discriminate.
  - intros k E K. destruct (L k E K) as (i & A & B & D). exists i. rewrite starts_app. split; [exact A|]. split; [exact B|].
    change (starts [LHalt r]) with 0. lia.
  - rewrite voids_app, V. change (voids [LHalt r]) with 0. lia.
Qed.

(** Stopped: nothing is counted any more. *)
Lemma core_stopped m v n n' g reason l : core m v n g reason l -> r_stopping g = true -> core m v n' g reason l.
Proof. intros [P N H M L V] S. constructor; try assumption. rewrite S. discriminate. Qed.

(** A game is asked for: [max_games_this_run] goes down. *)
Lemma core_ask m v n g g' reason l : core m v n g reason l -> r_stopping g = false ->
  match r_max g with Some k => k =? 0 | None => false end = false ->
  r_prog g' = r_prog g -> r_stopping g' = false -> r_max g' = match r_max g with Some k => Some (k - 1) | None => None end -> r_void g' = r_void g ->
  core m v (n + 1) g' reason l /\ (forall k, m = Some k -> 0 <= k -> exists i, r_max g' = Some i /\ 0 <= i /\ starts l + i + 1 <= k).
Proof.
  intros [P N H M L V] S Z E1 E2 E3 E4. rewrite S in H.
  assert (L' : forall k, m = Some k -> 0 <= k -> exists i, r_max g' = Some i /\ 0 <= i /\ starts l + i + 1 <= k).
  { intros k E K. destruct (L k E K) as (i & A & B & D). rewrite A in Z, E3. apply Z.eqb_neq in Z. exists (i - 1). split; [exact E3|]. split; lia. }
  split; [|exact L']. constructor; rewrite ?E1, ?E2, ?E4; try assumption.
  - intros _. rewrite E3, (M S). destruct m as [k|]; cbn [option_map]; [f_equal; lia|reflexivity].
  - intros k E K. destruct (L' k E K) as (i & A & B & D). exists i. split; [exact A|]. split; [exact B|lia].
Qed.

(** A game starts. *)
Lemma core_start m v n g g' reason l id b w j : core m v n g reason l -> r_stopping g = false ->
  (forall k, m = Some k -> 0 <= k -> exists i, r_max g = Some i /\ 0 <= i /\ starts l + i + 1 <= k) ->
  r_prog g' = dset id j (r_prog g) -> r_stopping g' = false -> r_max g' = r_max g -> r_void g' = r_void g ->
  core m v n g' reason (l ++ [LStart id b w]).
Proof.
  intros [P N H M L V] S L' E1 E2 E3 E4. rewrite S in H. constructor; rewrite ?E1, ?E2, ?E3, ?E4.
  - intros id'. rewrite dmem_dset, open_app, open_start, P. split.
    + intros [A|A]; [left; exact A|]. destruct (bytes_eqb_spec id' id) as [Q|Q]; [left; exact Q|]. right. split; [exact A|].
      intros e [<-|[]] [X|(t & X)]; discriminate.
    + intros [A|[A _]]; [left|right]; exact A.
  - apply dset_NoDup. exact N.
  - intros r I. apply in_app_or in I. destruct I as [I|[I|[]]]; [exact (H r I)|discriminate].
  - intros _. exact (M S).
  - intros k E K. destruct (L' k E K) as (i & A & B & D). exists i. rewrite starts_app. split; [exact A|]. split; [exact B|].
    change (starts [LStart id b w]) with 1. lia.
  - rewrite voids_app, V. change (voids [LStart id b w]) with 0. lia.
Qed.

(** A game ends. *)
Lemma core_end m v n g g' reason l id e : core m v n g reason l -> ends id e -> dmem id (r_prog g) = true ->
  r_prog g' = ddel id (r_prog g) -> r_stopping g' = r_stopping g -> r_max g' = r_max g -> r_void g' = r_void g + voids [e] ->
  core m v n g' reason (l ++ [e]).
Proof.
  intros [P N H M L V] EN D E1 E2 E3 E4.
  assert (NS : is_start e = false /\ forall r, e <> LHalt r).
  { destruct EN as [->|(t & ->)]; (split; [reflexivity|discriminate]). }
  destruct NS as [NS NH].
  constructor; rewrite ?E1, ?E2, ?E3, ?E4.
  - intros id'. rewrite dmem_ddel, open_app, P. split.
    + intros [A B]. right. split; [exact B|]. intros e' [<-|[]] X.
      destruct EN as [->|(t & ->)], X as [X|(t' & X)]; try discriminate; injection X; intros; congruence.
    + intros [(l1 & b & w & l2 & E & _)|[A B]].
      * exfalso. destruct l1 as [|y [|z l1]]; [|discriminate|discriminate]. cbn in E. injection E as E _. rewrite E in NS. discriminate.
      * split; [|exact A]. intros ->. exact (B e (or_introl eq_refl) EN).
  - apply ddel_NoDup. exact N.
  - destruct (r_stopping g).
    + destruct H as [A B]. split; [apply in_or_app; left; exact A|]. apply halts_more; [exact B| |].
      * intros r [I|[]]. exact (NH r I).
      * intros a b w [I|[]]. rewrite I in NS. discriminate.
    + intros r I. apply in_app_or in I. destruct I as [I|[I|[]]]; [exact (H r I)|exact (NH r I)].
  - exact M.
  - intros k E K. destruct (L k E K) as (i & A & B & D'). exists i. rewrite starts_app. split; [exact A|]. split; [exact B|].
    assert (starts [e] = 0) as -> by (unfold starts; cbn [filter]; rewrite NS; reflexivity). lia.
  - rewrite voids_app, V. lia.
Qed.
End Core.
