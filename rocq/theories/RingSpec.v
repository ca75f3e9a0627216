(** What the ringmaster's properties mean (C29). *)
From Coq Require Import Permutation.
From Verif Require Import Base Bytes Dict JobModel JobSpec RingModel.

Section Spec.
Context {CF C ST J R : Type}.
Variable comp : competition CF C ST J R.
Variable job_id : J -> bytes.
Variable response_id : R -> bytes.
(** Control files that are considered; the responses that can result from a job. *)
Variable ok_cf : CF -> Prop.
Variable answers : J -> R -> Prop.

(** What the ringmaster relies on in a competition.  [inv c l]: the competition is in order,
    and [l] are the games it has handed out and not had back; [saved st]: this status can be
    loaded; [records st c]: the status (None: there is no status file) contains everything
    there is to save. *)
Record sound (inv : C -> list J -> Prop) (saved : ST -> Prop) (records : option ST -> C -> Prop) : Prop := mkSound {
  so_perm : forall c l l', inv c l -> Permutation l l' -> inv c l';
  so_clean : forall cf c, ok_cf cf -> c_clean comp cf = Ok c -> inv c [] /\ records None c;
  so_load : forall cf st c, ok_cf cf -> saved st -> c_load comp cf st = Ok c -> inv c [] /\ records (Some st) c;
  so_status : forall c l, inv c l -> saved (c_status comp c) /\ records (Some (c_status comp c)) c;
  so_get : forall c l x, inv c l -> records x c ->
    match c_get comp c with
    | (c', Ok (Some j)) => inv c' (j :: l) /\ records x c' /\ ~ In (job_id j) (map job_id l)
    | (c', Ok None) => inv c' l /\ records x c'
    | (_, Err _) => False
    end;
  so_report : forall c l x, inv c l -> records x c -> inv (c_report comp c) l /\ records x (c_report comp c);
  so_result : forall c j l r, inv c (j :: l) -> answers j r ->
    exists c', c_result comp r c = (c', Ok tt) /\ inv c' l;
  so_error : forall c j l n, inv c (j :: l) ->
    exists c' stop retry, c_error comp j n c = (c', Ok (stop, retry)) /\
      (if stop then inv c' (j :: l) \/ inv c' l else if retry then inv c' (j :: l) else inv c' l)
}.

(** What a job can result in. *)
Definition runs (j : J) (x : ran R) : Prop :=
  match x with RanOk r => answers j r /\ response_id r = job_id j | RanFailed _ => True end.

(** A run of the ringmaster in progress: the control file, the limit on the number of games,
    the ringmaster's state, the calls from the job manager so far, and the jobs that haven't
    been answered. *)
Record running : Type := mkRun {
  ru_cf : CF;
  ru_max : option Z;
  ru_ring : ring C J;
  ru_calls : list (call J R);
  ru_flight : list J
}.

(** [reach x d]: after any number of runs, with different control files perhaps, which were
    killed at any time or have ended with an error, the disk is [d] and [x] is the present
    run. *)
Inductive reach : option running -> disk ST -> Prop :=
| re_new : reach None (mkDisk None None)
| re_run x d cf max display g n cs g' d' l :
    reach x d -> ok_cf cf -> start comp cf max display d = Ok g ->
    history (ring_source comp job_id response_id) runs n (g, d) [] cs (g', d') l ->
    reach (Some (mkRun cf max g' cs l)) d'
(** Killed while processing a response or an error response. *)
| re_kill_response u d j r fail g' ds x d' :
    reach (Some u) d -> In j (ru_flight u) -> runs j (RanOk r) ->
    process_response comp response_id fail r (ru_ring u) d = (g', ds, x) -> In d' ds -> reach None d'
| re_kill_error u d j fail g' ds x d' :
    reach (Some u) d -> In j (ru_flight u) ->
    process_error_response comp job_id fail j (ru_ring u) d = (g', ds, x) -> In d' ds -> reach None d'
(** The state is deleted by the 'reset' command. *)
| re_reset x d : reach x d -> reach None (mkDisk None (d_new d)).

(** The jobs handed to the job manager. *)
Definition given (cs : list (call J R)) : list J :=
  flat_map (fun c => match c with CallGet (Ok (Some j)) => [j] | _ => [] end) cs.
(** The number of errors. *)
Definition errors (cs : list (call J R)) : Z :=
  Z.of_nat (List.length (flat_map (fun c => match c with CallDeliver (JobError j _) _ => [j] | _ => [] end) cs)).

End Spec.
Arguments running : clear implicits.

(** A competition that notes which errors it has been told about: the game, the number of
    previous errors it was given, and whether it asked for a retry. *)
Record noted : Type := mkNoted { no_id : bytes; no_count : Z; no_retried : bool }.
Definition errors_noted {CF C ST J R} (job_id : J -> bytes) (comp : competition CF C ST J R) : competition CF (C * list noted) ST J R :=
  mkComp CF (C * list noted) ST J R
    (fun cf => match c_clean comp cf with Ok c => Ok (c, []) | Err e => Err e end)
    (fun cf st => match c_load comp cf st with Ok c => Ok (c, []) | Err e => Err e end)
    (fun c => c_status comp (fst c))
    (fun c => let (c', x) := c_get comp (fst c) in ((c', snd c), x))
    (fun r c => let (c', x) := c_result comp r (fst c) in ((c', snd c), x))
    (fun j n c => let (c', x) := c_error comp j n (fst c) in
       ((c', snd c ++ [mkNoted (job_id j) n (match x with Ok (stop, retry) => retry && negb stop | Err _ => false end)]), x))
    (fun c => (c_report comp (fst c), snd c)).

(** The number of times that a game has been retried since it last wasn't. *)
Definition retry_step (id : bytes) (n : Z) (x : noted) : Z :=
  if bytes_eqb id (no_id x) then (if no_retried x then n + 1 else 0) else n.
Definition retries (id : bytes) (l : list noted) : Z := fold_left (retry_step id) l 0.
