(** What the ringmaster's live display shows, from the history of its use. *)
From Verif Require Import Base Bytes PyStr RunLogModel ScreenModel.
Open Scope Z_scope.

(** The messages given to a channel since it was last cleared. *)
Inductive since (c : channel) : list use -> list bytes -> Prop :=
| si_start : since c [] []
| si_clear us : since c (us ++ [UClear c]) []
| si_say us l s : since c us l -> since c (us ++ [USay c s]) (l ++ [s])
| si_other us l u : since c us l -> u <> UClear c -> (forall s, u <> USay c s) -> since c (us ++ [u]) l.

(** The last [n] of a list (all of them, if there are fewer). *)
Definition at_most_last {A} (n : nat) (l k : list A) : Prop :=
  exists before, l = before ++ k /\ (List.length k <= n)%nat /\ (before <> [] -> List.length k = n).

(** A part of the screen: nothing if there are no messages; else a heading, the last messages, one
    below the other, and a blank line or not. *)
Inductive part (heading : bytes) (n : nat) (foot : bytes) (l : list bytes) : bytes -> Prop :=
| pa_none : l = [] -> part heading n foot l []
| pa_some k : l <> [] -> at_most_last n l k ->
    part heading n foot l (heading ++ List.concat (map (fun s => s ++ [char_lf]) k) ++ foot).

Definition written (ds : list deed) : bytes :=
  List.concat (map (fun d => match d with Wrote s => s | RanClear => [] end) ds).
Definition ran_clear (ds : list deed) : nat :=
  List.length (filter (fun d => match d with RanClear => true | _ => false end) ds).

(** How many screens have been shown, and whether each time "clear" would have worked. *)
Fixpoint refreshes (us : list use) : list bool :=
  match us with [] => [] | URefresh w :: us => w :: refreshes us | _ :: us => refreshes us end.
