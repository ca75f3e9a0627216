(** What the scheduling properties mean (C22 - C24): abstract machines. *)
From Verif Require Import Base Bytes.

(** ** One sequence of games: which tokens are fixed, which are outstanding *)
Record bag : Type := mkB { b_fixed : list nat; b_out : list nat }.

Definition taken (b : bag) (t : nat) : Prop := In t (b_fixed b) \/ In t (b_out b).

(** The next token: the smallest one that is neither fixed nor outstanding. *)
Definition next_token_of (b : bag) (t : nat) : Prop :=
  ~ taken b t /\ forall u, (u < t)%nat -> taken b u.

Inductive sevent : Type :=
| EvIssue            (* issue() *)
| EvFix (t : nat)    (* fix(t) *)
| EvRollback         (* rollback() *)
| EvSave             (* the pickled state is written to disk *)
| EvRestart.         (* the process is lost; the last saved state is loaded and rolled back *)

(** What the caller sees: an issued token, nothing, or a KeyError; and the public
    attributes [issued] and [fixed] afterwards. *)
Inductive sanswer : Type := AnsToken (t : nat) | AnsDone | AnsError.
Definition sobs := (sanswer * Z * Z)%type.

Definition issued_count (b : bag) : Z :=
  Z.of_nat (List.length (b_fixed b)) + Z.of_nat (List.length (b_out b)).
Definition fixed_count (b : bag) : Z := Z.of_nat (List.length (b_fixed b)).

(** The abstract machine: current bag, and the bag last saved. *)
Inductive astep : bag * bag -> sevent -> sanswer -> bag * bag -> Prop :=
| as_issue b v t : next_token_of b t ->
    astep (b, v) EvIssue (AnsToken t) (mkB (b_fixed b) (t :: b_out b), v)
| as_fix b v t o1 o2 : b_out b = o1 ++ t :: o2 ->
    astep (b, v) (EvFix t) AnsDone (mkB (t :: b_fixed b) (o1 ++ o2), v)
| as_fix_error b v t : ~ In t (b_out b) -> astep (b, v) (EvFix t) AnsError (b, v)
| as_rollback b v : astep (b, v) EvRollback AnsDone (mkB (b_fixed b) [], v)
| as_save b v : astep (b, v) EvSave AnsDone (b, b)
| as_restart b v : astep (b, v) EvRestart AnsDone (mkB (b_fixed v) [], v).

Inductive arun : bag * bag -> list sevent -> list sobs -> bag * bag -> Prop :=
| ar_nil st : arun st [] [] st
| ar_cons st e a st1 es os st2 :
    astep st e a st1 -> arun st1 es os st2 ->
    arun st (e :: es) ((a, issued_count (fst st1), fixed_count (fst st1)) :: os) st2.

Definition empty_bag : bag := mkB [] [].

(** The bag is meaningful: no duplicates, no token both fixed and outstanding. *)
Definition bag_ok (b : bag) : Prop := NoDup (b_fixed b ++ b_out b).

(** ** Several groups *)
Record group : Type := mkGr { gr_code : bytes; gr_limit : option Z; gr_bag : bag }.

Definition below_limit (g : group) : Prop :=
  match gr_limit g with None => True | Some l => issued_count (gr_bag g) < l end.

(** The group to schedule next: below its limit, with fewest issued games among those
    below their limits, the first such in the list. *)
Definition chosen (gs1 : list group) (g : group) (gs2 : list group) : Prop :=
  below_limit g /\
  (forall h, In h gs1 -> below_limit h -> issued_count (gr_bag g) < issued_count (gr_bag h)) /\
  (forall h, In h gs2 -> below_limit h -> issued_count (gr_bag g) <= issued_count (gr_bag h)).

Definition find_bag (code : bytes) (gs : list group) : bag :=
  match List.find (fun g => bytes_eqb code (gr_code g)) gs with
  | Some g => gr_bag g
  | None => empty_bag
  end.

Inductive gevent : Type :=
| GIssue | GFix (code : bytes) (t : nat) | GRollback | GSave | GRestart
| GSetGroups (specs : list (bytes * option Z)).

Inductive ganswer : Type :=
| GToken (code : bytes) (t : nat) | GNoGame | GDone | GError.

Inductive gastep : list group * list group -> gevent -> ganswer -> list group * list group -> Prop :=
| ga_issue gs1 g gs2 v t : chosen gs1 g gs2 -> next_token_of (gr_bag g) t ->
    gastep (gs1 ++ g :: gs2, v) GIssue (GToken (gr_code g) t)
      (gs1 ++ mkGr (gr_code g) (gr_limit g) (mkB (b_fixed (gr_bag g)) (t :: b_out (gr_bag g))) :: gs2, v)
| ga_none gs v : (forall g, In g gs -> ~ below_limit g) -> gastep (gs, v) GIssue GNoGame (gs, v)
| ga_fix gs1 code l f o1 t o2 gs2 v :
    gastep (gs1 ++ mkGr code l (mkB f (o1 ++ t :: o2)) :: gs2, v) (GFix code t) GDone
           (gs1 ++ mkGr code l (mkB (t :: f) (o1 ++ o2)) :: gs2, v)
| ga_fix_error gs v code t :
    (forall g, In g gs -> gr_code g = code -> ~ In t (b_out (gr_bag g))) ->
    gastep (gs, v) (GFix code t) GError (gs, v)
| ga_rollback gs v :
    gastep (gs, v) GRollback GDone
      (map (fun g => mkGr (gr_code g) (gr_limit g) (mkB (b_fixed (gr_bag g)) [])) gs, v)
| ga_save gs v : gastep (gs, v) GSave GDone (gs, gs)
| ga_restart gs v :
    gastep (gs, v) GRestart GDone
      (map (fun g => mkGr (gr_code g) (gr_limit g) (mkB (b_fixed (gr_bag g)) [])) v, v)
| ga_set gs v specs :
    gastep (gs, v) (GSetGroups specs) GDone
      (map (fun s => mkGr (fst s) (snd s) (find_bag (fst s) gs)) specs, v).

Inductive garun : list group * list group -> list gevent -> list ganswer ->
                  list group * list group -> Prop :=
| gr_nil st : garun st [] [] st
| gr_cons st e a st1 es os st2 :
    gastep st e a st1 -> garun st1 es os st2 -> garun st (e :: es) (a :: os) st2.

Definition distinct_codes (e : gevent) : Prop :=
  match e with GSetGroups specs => NoDup (map fst specs) | _ => True end.
