(** What tree editing means (C19, C20), apart from the code. *)
From Verif Require Import Base Bytes PyStr Dict SgfGrammarModel SgfGrammarSpec SgfPropsModel SgfTreeModel.

(** ** Trees of nodes (C19) *)

(** A finite ordered tree of node objects. *)
Inductive rose : Type := R (n : nat) (kids : list rose).

Definition label (t : rose) : nat := match t with R n _ => n end.
Definition below (t : rose) : list rose := match t with R _ ks => ks end.

(** All the nodes of a tree, in pre-order. *)
Fixpoint labels (t : rose) : list nat :=
  match t with R n ks => n :: flat_map labels ks end.

(** [t] is what a program sees by following child lists (len, indexing, iteration) from
    [n]. *)
Inductive tree_of (w : world) : nat -> rose -> Prop :=
| tree_of_intro n x ts : node_at w n = Some x -> Forall2 (tree_of w) (t_kids x) ts ->
    tree_of w n (R n ts).

(** The public [parent] and [owner] attributes. *)
Definition parent_is (w : world) (n : nat) (p : option nat) : Prop :=
  exists x, node_at w n = Some x /\ t_parent x = p.
Definition owner_is (w : world) (n g : nat) : Prop :=
  exists x, node_at w n = Some x /\ t_owner x = g.
Definition kids_are (w : world) (n : nat) (l : list nat) : Prop :=
  exists x, node_at w n = Some x /\ t_kids x = l.

(** Following [parent] from [m] meets [n] ([m] itself included). *)
Inductive above (w : world) (n : nat) : nat -> Prop :=
| above_self : above w n n
| above_up m p : parent_is w m (Some p) -> above w n p -> above w n m.

(** A node that is in its parent's child list. *)
Definition attached (w : world) (n : nat) : Prop :=
  exists p l, parent_is w n (Some p) /\ kids_are w p l /\ In n l.

(** The game [g] is a tree: following child lists from the root gives a finite tree in
    which no node occurs twice; every other node is listed exactly once by the node its
    parent attribute names, which is in the tree, and by no other node at all; the root
    has no parent and is listed nowhere; all belong to [g]. *)
Definition game_is_tree (w : world) (g : nat) (r : nat) : Prop :=
  exists t, tree_of w r t /\ NoDup (labels t) /\
    parent_is w r None /\
    (forall q l, kids_are w q l -> ~ In r l) /\
    (forall n, In n (labels t) -> owner_is w n g) /\
    (forall n, In n (labels t) -> n <> r ->
       exists p l, parent_is w n (Some p) /\ In p (labels t) /\ kids_are w p l /\
         count_occ Nat.eq_dec l n = 1%nat /\
         (forall q l', q <> p -> kids_are w q l' -> ~ In n l')).

(** Editing trees. *)

(** [list.insert] on lists of any kind of thing; [None] is the end. *)
Definition insert_at {A} (index : option Z) (x : A) (l l' : list A) : Prop :=
  exists l1 l2, l = l1 ++ l2 /\ l' = l1 ++ x :: l2 /\
    (index = None -> l2 = []) /\
    (forall i, index = Some i -> 0 <= i <= Z.of_nat (List.length l) -> Z.of_nat (List.length l1) = i) /\
    (forall i, index = Some i -> - Z.of_nat (List.length l) <= i < 0 -> Z.of_nat (List.length l2) = - i) /\
    (forall i, index = Some i -> Z.of_nat (List.length l) < i -> l2 = []) /\
    (forall i, index = Some i -> i < - Z.of_nat (List.length l) -> l1 = []).

(** [t'] is [t] with [s] put into the child list of the node [p] (if it is there). *)
Inductive inserted (p : nat) (index : option Z) (s : rose) : rose -> rose -> Prop :=
| ins_here ts ts' us : Forall2 (inserted p index s) ts ts' -> insert_at index s ts' us ->
    inserted p index s (R p ts) (R p us)
| ins_other n ts ts' : n <> p -> Forall2 (inserted p index s) ts ts' ->
    inserted p index s (R n ts) (R n ts').

(** [t] with the subtree at [n] cut out of the child list it is in. *)
Fixpoint cut (n : nat) (t : rose) : rose :=
  match t with
  | R m ks => R m (flat_map (fun k => if Nat.eqb (label k) n then [] else [cut n k]) ks)
  end.

(** The same games and nodes, with the same properties: everything but the links. *)
Definition same_data (w w' : world) : Prop :=
  w_games w' = w_games w /\ List.length (w_nodes w') = List.length (w_nodes w) /\
  forall m x, node_at w m = Some x -> exists x', node_at w' m = Some x' /\
    t_props x' = t_props x /\ t_owner x' = t_owner x.

(** The node [q] has [m] in its child list. *)
Definition lists (w : world) (q m : nat) : Prop := exists l, kids_are w q l /\ In m l.

(** ** Navigation *)

(** The first-child path. *)
Fixpoint leftmost (t : rose) : list nat :=
  match t with R n ks => n :: match ks with [] => [] | k :: _ => leftmost k end end.

(** [l] leads from the root of [t] to the node [n] ([n] excluded). *)
Inductive path_to (n : nat) : rose -> list nat -> Prop :=
| path_here ts : path_to n (R n ts) []
| path_down m ts t l : In t ts -> path_to n t l -> path_to n (R m ts) (m :: l).

(** ** Games as data: the property maps of the tree below a node *)
Inductive data_of (w : world) : nat -> ntree -> Prop :=
| data_of_intro n x ts : node_at w n = Some x -> Forall2 (data_of w) (t_kids x) ts ->
    data_of w n (NT (t_props x) ts).

(** Same shape, and at every node the same identifiers with the same values. *)
Inductive same_data_tree : ntree -> ntree -> Prop :=
| sdt m m' ks ks' : same_node m m' -> Forall2 same_data_tree ks ks' -> same_data_tree (NT m ks) (NT m' ks').

(** ** Property maps (C20) *)

(** [w'] differs from [w] at most in the properties of [n] named in [ks]. *)
Definition only_changes (w : world) (n : nat) (ks : list bytes) (w' : world) : Prop :=
  (forall m k, m <> n \/ ~ In k ks -> get_raw_list w' m k = get_raw_list w m k) /\
  (forall m t, tree_of w m t <-> tree_of w' m t) /\
  (forall m p, parent_is w m p <-> parent_is w' m p) /\
  (forall m g, owner_is w m g <-> owner_is w' m g) /\
  w_games w' = w_games w.

(** The type the presenter of [n]'s game gives to [k]. *)
Definition type_of (w : world) (n : nat) (k : bytes) (t : ptype) : Prop :=
  exists x pr, node_at w n = Some x /\ pres_of w x = Some pr /\ effective_type pr k = Ok t.
Definition context_of (w : world) (n : nat) (c : context) : Prop :=
  exists x pr, node_at w n = Some x /\ pres_of w x = Some pr /\ pr_context pr = c.


(** No property identifier of the tree is empty.  (The parser drops lower-case letters, so
    it reads "c[x]" as a property with an empty identifier; nothing else creates one.) *)
Inductive all_named : ntree -> Prop :=
| an_intro m ks : ~ In [] (map fst m) -> Forall all_named ks -> all_named (NT m ks).
