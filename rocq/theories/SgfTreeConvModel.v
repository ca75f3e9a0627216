(** Model of the tree conversions of gomill/sgf_grammar.py (make_tree,
    make_coarse_game_tree) on a heap of mutable objects. *)
From Verif Require Import Base Bytes SgfGrammarModel SgfGrammarSpec.

(** ** Node objects: properties and the list of children (as heap addresses).
    sgf.py:343-351: [Tree_node.__init__] gives a new node an empty child list. *)
Record nobj : Type := mkN { n_props : pmap; n_kids : list nat }.
Definition nheap := list nobj.

(** Replace the object at address [i]. *)
Fixpoint update {A} (i : nat) (x : A) (h : list A) : list A :=
  match h, i with
  | [], _ => []
  | _ :: h', O => x :: h'
  | y :: h', S i' => y :: update i' x h'
  end.

(** [child = node_builder(node, props); node_adder(node, child)]
    (sgf_grammar.py:354-355, 360-361; sgf.py:459-460 passes Tree_node and
    Tree_node._add_child): allocate a node and append it to the parent's children. *)
Definition add_node (h : nheap) (parent : nat) (props : pmap) : nheap * nat :=
  let child := List.length h in
  let h1 := h ++ [mkN props []] in
  match nth_error h1 parent with
  | Some n => (update parent (mkN (n_props n) (n_kids n ++ [child])) h1, child)
  | None => (h1, child)
  end.

(** sgf_grammar.py:359-362: [for child_tree in game_tree.children]; returns the work
    items in the order in which they are appended.  [child_tree.sequence[0]] raises
    IndexError on an empty sequence. *)
Fixpoint add_variations (h : nheap) (node : nat) (ch : list ctree)
  : res (nheap * list (nat * ctree * nat)) :=
  match ch with
  | [] => Ok (h, [])
  | CT sq cc :: rest =>
      match sq with
      | [] => Err IndexError
      | m :: _ =>
          let (h1, child) := add_node h node m in
          do (h2, items) <- add_variations h1 node rest;
          Ok (h2, (child, CT sq cc, O) :: items)
      end
  end.

(** sgf_grammar.py:349-362 [make_tree].  The work list is kept top-first. *)
Fixpoint make_tree_loop (fuel : nat) (stack : list (nat * ctree * nat)) (h : nheap) : res nheap :=
  match stack with
  | [] => Ok h
  | (node, CT sq ch, index) :: stack' =>
      match fuel with
      | O => Err OutOfFuel
      | S fuel' =>
          match nth_error sq (index + 1) with            (* index < len(sequence) - 1 *)
          | Some m =>
              let (h1, child) := add_node h node m in
              make_tree_loop fuel' ((child, CT sq ch, (index + 1)%nat) :: stack') h1
          | None =>
              (* node._children = [] *)
              let h0 := match nth_error h node with
                        | Some n => update node (mkN (n_props n) []) h
                        | None => h
                        end in
              do (h1, items) <- add_variations h0 node ch;
              make_tree_loop fuel' (rev items ++ stack') h1
          end
      end
  end.

(** Number of nodes of a coarse tree (fuel only). *)
Fixpoint ctree_nodes (t : ctree) : nat :=
  match t with
  | CT sq ch => (List.length sq + fold_right (fun x n => (ctree_nodes x + n)%nat) O ch)%nat
  end.

(** The call made by [_Unexpanded_root_tree_node._expand] (sgf.py:452-460): the root
    object, at address 0, already holds the properties of the first node. *)
Definition make_tree (t : ctree) : res nheap :=
  match t with
  | CT [] _ => Err IndexError
  | CT (m :: sq) ch =>
      make_tree_loop (ctree_nodes t) [(O, t, O)] [mkN m []]
  end.

(** ** Coarse_game_tree objects (sgf_grammar.py:126-142) *)
Record gobj : Type := mkGO { g_seq : list pmap; g_kids : list nat }.
Definition gheap := list gobj.

(** sgf_grammar.py:386-391: the inner [while True] loop; returns the appended property
    maps and the children at which it stopped.  The node tree is only read, so it is an
    immutable [ntree] here. *)
Fixpoint chain (t : ntree) : list pmap * list ntree :=
  match t with
  | NT m ks =>
      match ks with
      | [k] => let (s, c) := chain k in (m :: s, c)
      | _ => ([m], ks)
      end
  end.

(** sgf_grammar.py:392-395. *)
Fixpoint add_subtrees (h : gheap) (gt : nat) (ks : list ntree) : gheap * list (nat * ntree) :=
  match ks with
  | [] => (h, [])
  | k :: rest =>
      let child := List.length h in
      let h1 := h ++ [mkGO [] []] in
      let h2 := match nth_error h1 gt with
                | Some g => update gt (mkGO (g_seq g) (g_kids g ++ [child])) h1
                | None => h1
                end in
      let (h3, items) := add_subtrees h2 gt rest in
      (h3, (child, k) :: items)
  end.

(** sgf_grammar.py:363-394 [make_coarse_game_tree]. *)
Fixpoint make_coarse_loop (fuel : nat) (stack : list (nat * ntree)) (h : gheap) : res gheap :=
  match stack with
  | [] => Ok h
  | (gt, node) :: stack' =>
      match fuel with
      | O => Err OutOfFuel
      | S fuel' =>
          let (s, ks) := chain node in
          let h1 := match nth_error h gt with
                    | Some g => update gt (mkGO (g_seq g ++ s) (g_kids g)) h
                    | None => h
                    end in
          let (h2, items) := add_subtrees h1 gt ks in
          make_coarse_loop fuel' (rev items ++ stack') h2
      end
  end.

Fixpoint ntree_size (t : ntree) : nat :=
  match t with NT _ ks => S (fold_right (fun x n => (ntree_size x + n)%nat) O ks) end.

Definition make_coarse_game_tree (root : ntree) : res gheap :=
  make_coarse_loop (ntree_size root) [(O, root)] [mkGO [] []].

(** ** Reading the heaps: the data structure reachable from an address *)
Inductive reads_node (h : nheap) : nat -> ntree -> Prop :=
| rn i m ks ts : nth_error h i = Some (mkN m ks) -> Forall2 (reads_node h) ks ts ->
    reads_node h i (NT m ts).

Inductive reads_coarse (h : gheap) : nat -> ctree -> Prop :=
| rc i sq ks ts : nth_error h i = Some (mkGO sq ks) -> Forall2 (reads_coarse h) ks ts ->
    reads_coarse h i (CT sq ts).
