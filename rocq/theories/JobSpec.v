(** What the job manager's properties mean (C28). *)
From Verif Require Import Base Bytes JobModel.

Section Spec.
Context {J R S : Type}.

(** What can be seen of an execution. *)
Definition obtained (ls : list (label J R)) : list J :=
  flat_map (fun l => match l with LGet (Some j) => [j] | _ => [] end) ls.
Definition started (ls : list (label J R)) : list J :=
  flat_map (fun l => match l with LTake _ j => [j] | _ => [] end) ls.
Definition finished (ls : list (label J R)) : list (J * ran R) :=
  flat_map (fun l => match l with LFinish _ j x => [(j, x)] | _ => [] end) ls.
Definition delivered (ls : list (label J R)) : list (outcome J R) :=
  flat_map (fun l => match l with LDeliver o => [o] | LDeliverError o _ => [o] | _ => [] end) ls.

(** The calls the job source receives, with what they return. *)
Inductive call : Type := CallGet (x : res (option J)) | CallDeliver (o : outcome J R) (x : res unit).
Definition calls (ls : list (label J R)) : list call :=
  flat_map (fun l => match l with
                     | LGet a => [CallGet (Ok a)]
                     | LGetError e => [CallGet (Err e)]
                     | LDeliver o => [CallDeliver o (Ok tt)]
                     | LDeliverError o e => [CallDeliver o (Err e)]
                     | _ => []
                     end) ls.

Variable src : source J R S.
Variable runs : J -> ran R -> Prop.

(** What a job source can rely on, with at most [n] jobs in flight: [history n s l cs s' l'] if
    the calls [cs] take the source from state [s] with the jobs [l] in flight to state [s'] with
    [l'] in flight.  A response or error is delivered once for each job, for a job in flight. *)
Inductive history (n : nat) : S -> list J -> list call -> S -> list J -> Prop :=
| h_nil s l : history n s l [] s l
| h_job s l cs s1 l1 j s2 : history n s l cs s1 l1 -> (List.length l1 < n)%nat -> s_get src s1 (Ok (Some j)) s2 ->
    history n s l (cs ++ [CallGet (Ok (Some j))]) s2 (j :: l1)
| h_nojob s l cs s1 l1 s2 : history n s l cs s1 l1 -> (List.length l1 < n)%nat -> s_get src s1 (Ok None) s2 ->
    history n s l (cs ++ [CallGet (Ok None)]) s2 l1
| h_response s l cs s1 a j b r s2 : history n s l cs s1 (a ++ j :: b) -> runs j (RanOk r) -> s_response src r s1 (Ok tt) s2 ->
    history n s l (cs ++ [CallDeliver (Response r) (Ok tt)]) s2 (a ++ b)
| h_error s l cs s1 a j b m s2 : history n s l cs s1 (a ++ j :: b) -> runs j (RanFailed m) -> s_error src j m s1 (Ok tt) s2 ->
    history n s l (cs ++ [CallDeliver (JobError j m) (Ok tt)]) s2 (a ++ b).

(** The same, ending with a call that raises [e]. *)
Inductive history_raises (n : nat) (s : S) (l : list J) (cs : list call) (s2 : S) (e : exn) : Prop :=
| hr_get cs1 s1 l1 : history n s l cs1 s1 l1 -> (List.length l1 < n)%nat -> s_get src s1 (Err e) s2 ->
    cs = cs1 ++ [CallGet (Err e)] -> history_raises n s l cs s2 e
| hr_response cs1 s1 a j b r : history n s l cs1 s1 (a ++ j :: b) -> runs j (RanOk r) -> s_response src r s1 (Err e) s2 ->
    cs = cs1 ++ [CallDeliver (Response r) (Err e)] -> history_raises n s l cs s2 e
| hr_error cs1 s1 a j b m : history n s l cs1 s1 (a ++ j :: b) -> runs j (RanFailed m) -> s_error src j m s1 (Err e) s2 ->
    cs = cs1 ++ [CallDeliver (JobError j m) (Err e)] -> history_raises n s l cs s2 e.

(** Jobs with a worker. *)
Definition busy (w : list (option J)) : list J := flat_map (fun x => match x with Some j => [j] | None => [] end) w.

End Spec.
Arguments call : clear implicits.
