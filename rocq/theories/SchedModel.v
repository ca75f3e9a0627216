(** Model of gomill/competition_schedulers.py. *)
From Verif Require Import Base Bytes Dict.

(** * Python sets of tokens (non-negative integers), as duplicate-free lists *)
Definition nmem (x : nat) (l : list nat) : bool := existsb (Nat.eqb x) l.
Definition sadd (x : nat) (l : list nat) : list nat := if nmem x l then l else x :: l.
Definition sdiscard (x : nat) (l : list nat) : list nat := filter (fun y => negb (Nat.eqb x y)) l.
Definition sunion (a b : list nat) : list nat := fold_right sadd a b.

(** [min(s)] of a non-empty set. *)
Definition smin (x : nat) (l : list nat) : nat := fold_right Nat.min x l.

(** * Simple_scheduler (competition_schedulers.py:13-75) *)
Record ssched : Type := mkS {
  next_new : nat;
  outstanding : list nat;
  to_reissue : list nat;
  issued : Z;
  fixed : Z
}.

(** :24-30 [__init__]. *)
Definition new_sched : ssched := mkS 0 [] [] 0 0.

(** :37-38 [__getstate__]. *)
Definition sched_getstate (s : ssched) : nat * list nat * list nat :=
  (next_new s, outstanding s, to_reissue s).

(** :40-44 [__setstate__]. *)
Definition sched_setstate (st : nat * list nat * list nat) : ssched :=
  let '(n, o, r) := st in
  let i := Z.of_nat n - Z.of_nat (List.length r) in
  mkS n o r i (i - Z.of_nat (List.length o)).

(** :46-61 [issue]. *)
Definition issue (s : ssched) : ssched * nat :=
  match to_reissue s with
  | x :: r =>
      let result := smin x r in
      (mkS (next_new s) (sadd result (outstanding s)) (sdiscard result (to_reissue s))
           (issued s + 1) (fixed s), result)
  | [] =>
      let result := next_new s in
      (mkS (S (next_new s)) (sadd result (outstanding s)) [] (issued s + 1) (fixed s), result)
  end.

(** :63-67 [fix] ([set.remove] raises KeyError for an absent element). *)
Definition fix_token (s : ssched) (t : nat) : ssched * res unit :=
  if nmem t (outstanding s)
  then (mkS (next_new s) (sdiscard t (outstanding s)) (to_reissue s) (issued s) (fixed s + 1), Ok tt)
  else (s, Err KeyError).

(** :69-74 [rollback]. *)
Definition rollback (s : ssched) : ssched :=
  mkS (next_new s) [] (sunion (to_reissue s) (outstanding s))
      (issued s - Z.of_nat (List.length (outstanding s))) (fixed s).

(** * Group_scheduler (competition_schedulers.py:77-181); group codes are byte
    strings.  [limits] values are [None] or an int. *)
Record gsched : Type := mkGS {
  allocators : dict ssched;
  limits : dict (option Z);
  priorities : dict nat
}.

(** :92-96 [__init__]. *)
Definition new_gsched : gsched := mkGS [] [] [].

(** Pickled form: :98-99 [__getstate__], each allocator pickled by its own
    [__getstate__]. *)
Definition gstate := (dict (nat * list nat * list nat) * dict (option Z) * dict nat)%type.

Definition gsched_getstate (g : gsched) : gstate :=
  (map (fun kv => (fst kv, sched_getstate (snd kv))) (allocators g), limits g, priorities g).

(** :101-110 [__setstate__] for states written by this version. *)
Definition gsched_setstate (st : gstate) : gsched :=
  let '(a, l, p) := st in
  mkGS (map (fun kv => (fst kv, sched_setstate (snd kv))) a) l p.

(** :124-137 the loop of [set_groups]. *)
Fixpoint set_groups_loop (old : dict ssched) (prio : nat) (specs : list (bytes * option Z))
  (g : gsched) : gsched :=
  match specs with
  | [] => g
  | (code, limit) :: rest =>
      let a := match dget code old with Some a => a | None => new_sched end in
      set_groups_loop old (S prio) rest
        (mkGS (dset code a (allocators g)) (dset code limit (limits g))
              (dset code prio (priorities g)))
  end.

Definition set_groups (g : gsched) (specs : list (bytes * option Z)) : gsched :=
  set_groups_loop (allocators g) 0 specs (mkGS [] [] []).

(** :146-154 the [available] list: (issue count, priority, group code). *)
Fixpoint available (g : gsched) (al : dict ssched) : res (list (Z * nat * bytes)) :=
  match al with
  | [] => Ok []
  | (code, a) :: rest =>
      match dget code (limits g) with
      | None => Err KeyError
      | Some limit =>
          do tl <- available g rest;
          if match limit with None => true | Some l => issued a <? l end
          then match dget code (priorities g) with
               | None => Err KeyError
               | Some p => Ok ((issued a, p, code) :: tl)
               end
          else Ok tl
      end
  end.

(** Comparison of the tuples, as [min] does it. *)
Definition tuple_ltb (x y : Z * nat * bytes) : bool :=
  let '(i, p, c) := x in
  let '(i', p', c') := y in
  if i <? i' then true else if i' <? i then false
  else if Nat.ltb p p' then true else if Nat.ltb p' p then false
  else bytes_ltb c c'.

(** [min(l)] for a non-empty list [x :: l]: the first smallest element. *)
Definition tuple_min (x : Z * nat * bytes) (l : list (Z * nat * bytes)) : Z * nat * bytes :=
  fold_left (fun m y => if tuple_ltb y m then y else m) l x.

(** :136-156 [issue]; [order] is the allocators dict as [iteritems()] delivers it.
    Theorem C24_iteration_order shows the result does not depend on it. *)
Definition gissue_in_order (g : gsched) (order : dict ssched) : gsched * res (option (bytes * nat)) :=
  match available g order with
  | Err e => (g, Err e)
  | Ok [] => (g, Ok None)
  | Ok (x :: l) =>
      let code := snd (tuple_min x l) in
      match dget code (allocators g) with
      | None => (g, Err KeyError)
      | Some a =>
          let (a', t) := issue a in
          (mkGS (dset code a' (allocators g)) (limits g) (priorities g), Ok (Some (code, t)))
      end
  end.

Definition gissue (g : gsched) : gsched * res (option (bytes * nat)) :=
  gissue_in_order g (allocators g).

(** :158-160 [fix]. *)
Definition gfix (g : gsched) (code : bytes) (t : nat) : gsched * res unit :=
  match dget code (allocators g) with
  | None => (g, Err KeyError)
  | Some a =>
      let (a', r) := fix_token a t in
      (mkGS (dset code a' (allocators g)) (limits g) (priorities g), r)
  end.

(** :162-165 [rollback]. *)
Definition grollback (g : gsched) : gsched :=
  mkGS (map (fun kv => (fst kv, rollback (snd kv))) (allocators g)) (limits g) (priorities g).

(** :167-170 [nothing_issued_yet]. *)
Definition nothing_issued_yet (g : gsched) : bool :=
  forallb (fun kv => issued (snd kv) =? 0) (allocators g).

(** :174-181 [all_fixed]; in Python 2 every int is greater than None. *)
Fixpoint all_fixed_loop (g : gsched) (al : dict ssched) : res bool :=
  match al with
  | [] => Ok true
  | (code, a) :: rest =>
      match dget code (limits g) with
      | None => Err KeyError
      | Some None => all_fixed_loop g rest
      | Some (Some l) => if fixed a >=? l then all_fixed_loop g rest else Ok false
      end
  end.

Definition all_fixed (g : gsched) : res bool := all_fixed_loop g (allocators g).

(** * Histories: the driver that feeds a sequence of calls to a scheduler.
    A save stores the pickled state; a restart loads the last saved state and calls
    [rollback] (tournaments.py:198-204 [set_status]). *)
From Verif Require Import SchedSpec.

Definition sstate := (ssched * (nat * list nat * list nat))%type.

Definition sstep (st : sstate) (e : sevent) : sstate * sanswer :=
  let (s, v) := st in
  match e with
  | EvIssue => let (s', t) := issue s in ((s', v), AnsToken t)
  | EvFix t => match fix_token s t with
               | (s', Ok _) => ((s', v), AnsDone)
               | (s', Err _) => ((s', v), AnsError)
               end
  | EvRollback => ((rollback s, v), AnsDone)
  | EvSave => ((s, sched_getstate s), AnsDone)
  | EvRestart => ((rollback (sched_setstate v), v), AnsDone)
  end.

Fixpoint srun (st : sstate) (es : list sevent) : sstate * list sobs :=
  match es with
  | [] => (st, [])
  | e :: rest =>
      let (st1, a) := sstep st e in
      let (st2, os) := srun st1 rest in
      (st2, (a, issued (fst st1), fixed (fst st1)) :: os)
  end.

Definition sinit : sstate := (new_sched, sched_getstate new_sched).

Definition gstep (st : gsched * gstate) (e : gevent) : gsched * gstate * ganswer :=
  let (g, v) := st in
  match e with
  | GIssue => match gissue g with
              | (g', Ok (Some (c, t))) => ((g', v), GToken c t)
              | (g', Ok None) => ((g', v), GNoGame)
              | (g', Err _) => ((g', v), GError)
              end
  | GFix c t => match gfix g c t with
                | (g', Ok _) => ((g', v), GDone)
                | (g', Err _) => ((g', v), GError)
                end
  | GRollback => ((grollback g, v), GDone)
  | GSave => ((g, gsched_getstate g), GDone)
  | GRestart => ((grollback (gsched_setstate v), v), GDone)
  | GSetGroups specs => ((set_groups g specs, v), GDone)
  end.

Fixpoint grun (st : gsched * gstate) (es : list gevent) : gsched * gstate * list ganswer :=
  match es with
  | [] => (st, [])
  | e :: rest =>
      let '(st1, a) := gstep st e in
      let '(st2, os) := grun st1 rest in
      (st2, a :: os)
  end.

Definition ginit : gsched * gstate := (new_gsched, gsched_getstate new_gsched).

(** Playing [n] games one after another: issue a token, then fix it. *)
Fixpoint run_games (n : nat) (s : ssched) : ssched * list (nat * res unit) :=
  match n with
  | O => (s, [])
  | S n' =>
      let (s1, t) := issue s in
      let (s2, r) := fix_token s1 t in
      let (s3, ts) := run_games n' s2 in
      (s3, (t, r) :: ts)
  end.
