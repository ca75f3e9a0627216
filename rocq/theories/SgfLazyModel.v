(** Model of the lazy building of loaded games in gomill/sgf.py: the root of a game that
    was loaded keeps the parser's Coarse_game_tree, and the other Tree_nodes are made when
    the root's children are first looked at. *)
From Verif Require Import Base Bytes PyStr Dict SgfGrammarModel SgfGrammarSpec SgfTreeConvModel
  CommonModel SgfPropsModel SgfTreeModel.

(** ** Objects *)

(** Coarse_game_tree (sgf_grammar.py:126-142), its property maps by address. *)
Inductive lctree : Type := LC (sq : list nat) (ch : list lctree).
Definition lc_sequence (t : lctree) : list nat := match t with LC sq _ => sq end.

(** A property map, and the Tree_node that uses it once there is one: its parent and its
    [_children].  Addresses are names: a Tree_node has the address of its property map, so
    that the names of nodes not made yet are settled when the text is loaded.  Whether the
    node exists is what [s_node] says.  [s_owner] is the game whose presenter reads the
    map (sgf.py:351, 478). *)
Record slot : Type := mkSlot {
  s_owner : nat;
  s_props : pmap;
  s_node : option (option nat * list nat)
}.

(** Sgf_game; [lg_coarse]: the root is a [_Unexpanded_root_tree_node], with this
    [_coarse_tree] (sgf.py:452-456). *)
Record lgame : Type := mkLG { lg_root : nat; lg_pres : presenter; lg_coarse : option lctree }.

Record lworld : Type := mkLW { lw_slots : list slot; lw_games : list lgame }.
Definition slot_at (lw : lworld) (n : nat) : option slot := nth_error (lw_slots lw) n.
Definition lgame_at (lw : lworld) (g : nat) : option lgame := nth_error (lw_games lw) g.

(** ** make_tree, sgf_grammar.py:333-362, building Tree_nodes *)

(** [Tree_node(node, properties)] and [node._add_child(child)] (sgf.py:347-354). *)
Definition set_slot (l : list slot) (n : nat) (x : option nat * list nat) : list slot :=
  match nth_error l n with
  | None => l
  | Some s => update n (mkSlot (s_owner s) (s_props s) (Some x)) l
  end.
Definition node_of (l : list slot) (n : nat) : option nat * list nat :=
  match nth_error l n with
  | Some s => match s_node s with Some x => x | None => (None, []) end
  | None => (None, [])
  end.
Definition build_child (l : list slot) (node child : nat) : list slot :=
  let l1 := set_slot l child (Some node, []) in
  set_slot l1 node (fst (node_of l1 node), snd (node_of l1 node) ++ [child]).

(** sgf_grammar.py:359-362: the children trees, and the work items in the order they are
    appended.  ([child_tree.sequence[0]]: the parser makes no empty sequences.) *)
Fixpoint build_children (l : list slot) (node : nat) (ch : list lctree) : list slot * list (nat * lctree * nat) :=
  match ch with
  | [] => (l, [])
  | c :: r =>
      match lc_sequence c with
      | [] => build_children l node r
      | child :: _ =>
          let (l', items) := build_children (build_child l node child) node r in
          (l', (child, c, O) :: items)
      end
  end.

(** sgf_grammar.py:349-362, the [while] loop; the work list is kept top first. *)
Fixpoint make_tree_loop (fuel : nat) (stack : list (nat * lctree * nat)) (l : list slot) : list slot :=
  match fuel, stack with
  | S fuel', (node, t, index) :: stack' =>
      match t with
      | LC sq ch =>
          match nth_error sq (index + 1) with
          | Some child => make_tree_loop fuel' ((child, t, (index + 1)%nat) :: stack') (build_child l node child)
          | None =>
              let l0 := set_slot l node (fst (node_of l node), []) in
              let (l1, items) := build_children l0 node ch in
              make_tree_loop fuel' (rev items ++ stack') l1
          end
      end
  | _, _ => l
  end.

Fixpoint lctree_nodes (t : lctree) : nat :=
  match t with LC sq ch => (List.length sq + fold_right (fun x n => (lctree_nodes x + n)%nat) O ch)%nat end.

(** sgf.py:458-462 [_expand]. *)
Definition expand (lw : lworld) (g : nat) : lworld :=
  match lgame_at lw g with
  | None => lw
  | Some x =>
      match lg_coarse x with
      | None => lw
      | Some t =>
          mkLW (make_tree_loop (lctree_nodes t) [(lg_root x, t, O)] (lw_slots lw))
               (update g (mkLG (lg_root x) (lg_pres x) None) (lw_games lw))
      end
  end.

(** sgf.py:464-478: [len], indexing, [index] and [new_child] of an unexpanded root expand
    it first; on other nodes they don't. *)
Definition touch (lw : lworld) (n : nat) : lworld :=
  match slot_at lw n with
  | None => lw
  | Some s => match lgame_at lw (s_owner s) with
              | Some x => if Nat.eqb (lg_root x) n then expand lw (s_owner s) else lw
              | None => lw
              end
  end.

(** ** Operations *)

(** The objects as they are: the fields [owner], [parent], [_children] and [_property_map]
    of every node, made or not, and the games. *)
Definition view_node (s : slot) : tnode :=
  let x := match s_node s with Some x => x | None => (None, []) end in
  mkT (s_owner s) (fst x) (snd x) (s_props s).
Definition view (lw : lworld) : world :=
  mkW (map view_node (lw_slots lw)) (map (fun x => mkGame (lg_root x) (lg_pres x)) (lw_games lw)).

(** The effect on the objects of a method that changed the fields. *)
Fixpoint put_nodes (l : list slot) (ns : list tnode) : list slot :=
  match ns, l with
  | [], _ => []
  | x :: ns', [] => mkSlot (t_owner x) (t_props x) (Some (t_parent x, t_kids x)) :: put_nodes [] ns'
  | x :: ns', s :: l' =>
      mkSlot (t_owner x) (t_props x) (option_map (fun _ => (t_parent x, t_kids x)) (s_node s)) :: put_nodes l' ns'
  end.
Fixpoint put_games (l : list lgame) (gs : list game) : list lgame :=
  match gs, l with
  | [], _ => []
  | x :: gs', [] => mkLG (g_root x) (g_pres x) None :: put_games [] gs'
  | x :: gs', y :: l' => mkLG (g_root x) (g_pres x) (lg_coarse y) :: put_games l' gs'
  end.
Definition put (lw : lworld) (w : world) : lworld :=
  mkLW (put_nodes (lw_slots lw) (w_nodes w)) (put_games (lw_games lw) (w_games w)).

Definition loutcome : Type := (lworld * res unit)%type.

(** Methods that [_Unexpanded_root_tree_node] inherits run the same code on the objects as
    they are. *)
Definition inherited (lw : lworld) (o : op) : loutcome :=
  let '(w', r) := exec (view lw) o in (put lw w', r).

(** The property maps of the parsed text get the next addresses, in the order of the text. *)
Fixpoint number (t : ctree) (i : nat) : lctree * nat :=
  match t with
  | CT sq ch =>
      let '(ch', j) := (fix go (ch : list ctree) (i : nat) : list lctree * nat :=
                          match ch with
                          | [] => ([], i)
                          | c :: r => let '(c', i1) := number c i in
                                      let '(r', i2) := go r i1 in (c' :: r', i2)
                          end) ch (i + List.length sq)%nat in
      (LC (seq i (List.length sq)) ch', j)
  end.
Fixpoint maps_of (t : ctree) : list pmap :=
  match t with CT sq ch => sq ++ flat_map maps_of ch end.

(** sgf.py:528-568 [from_coarse_game_tree]: makes the root only. *)
Definition lazy_load (lw : lworld) (t : ctree) (e : encoding) (override : bool) : loutcome :=
  match c_sequence t with
  | [] => (lw, Err IndexError)
  | m :: _ =>
      match (match dget (str "SZ") m with
             | None => Ok 19
             | Some [] => Err IndexError
             | Some (s :: _) => py_int s
             end) with
      | Err ex => (lw, Err ex)
      | Ok size =>
          if negb ((1 <=? size) && (size <=? 26)) then (lw, Err ValueError)
          else
            let root := List.length (lw_slots lw) in
            let g := List.length (lw_games lw) in
            let lw1 := mkLW (lw_slots lw ++ mkSlot g m (Some (None, [])) ::
                               map (fun m' => mkSlot g m' None) (tl (maps_of t)))
                            (lw_games lw ++ [mkLG root (new_presenter size e) (Some (fst (number t root)))]) in
            if override then inherited lw1 (SetRaw root (str "CA") (encoding_name e)) else (lw1, Ok tt)
      end
  end.

Definition lexec (lw : lworld) (o : op) : loutcome :=
  match o with
  | LoadString s e ov =>
      match parse_sgf_game s with
      | Err ex => (lw, Err ex)
      | Ok t => lazy_load lw t e ov
      end
  | NewChild n _ => inherited (touch lw n) o
  | _ => inherited lw o
  end.

(** ** Reading *)

Inductive query : Type :=
| Length (n : nat)
| Item (n : nat) (i : Z)
| Index (n child : nat)
| Parent (n : nat)
| Find (n : nat) (k : bytes)
| HasProperty (n : nat) (k : bytes)
| GetRawList (n : nat) (k : bytes)
| Get (n : nat) (k : bytes)
| GetMove (n : nat)
| GetSetup (n : nat)
| SequenceAbove (n : nat)
| MainSequence (g : nat)
| MainSequenceBelow (n : nat)
| LastNode (g : nat)
| Serialise (g : nat) (wrap : option Z)
| MainIter (g : nat).

Inductive answer : Type :=
| ANum (r : res Z)
| ANode (r : res (option nat))
| ANodes (r : res (list nat))
| ABool (b : bool)
| ARaw (r : res (list bytes))
| AValue (r : res pvalue)
| AMove (r : res (option (colour * gmove)))
| ASetup (r : res (list point * list point * list point))
| AText (r : res bytes).

(** sgf.py:352-353 [__len__], [__getitem__] (an integer), [index]. *)
Definition kids_of (w : world) (n : nat) : list nat := match node_at w n with Some x => t_kids x | None => [] end.
Definition py_item {A} (l : list A) (i : Z) : res A :=
  let j := if i <? 0 then i + Z.of_nat (List.length l) else i in
  if j <? 0 then Err IndexError
  else match nth_error l (Z.to_nat j) with Some x => Ok x | None => Err IndexError end.
Fixpoint py_index (l : list nat) (x : nat) (i : Z) : res Z :=
  match l with
  | [] => Err ValueError
  | y :: r => if Nat.eqb x y then Ok i else py_index r x (i + 1)
  end.
Definition last_of (r : res (list nat)) : res (option nat) :=
  do l <- r; match rev l with n :: _ => Ok (Some n) | [] => Err IndexError end.

(** What the methods answer, given the fields of the objects.  (Main lines: the fuel is
    the number of nodes.)  sgf.py:644-671: [while node: node = node[0]]. *)
Definition root_of (w : world) (g : nat) : nat := match game_at w g with Some x => g_root x | None => O end.
Definition main_from (w : world) (n : nat) : res (list nat) := main_line (List.length (w_nodes w)) w n.
Definition ask (w : world) (q : query) : answer :=
  match q with
  | Length n => ANum (Ok (Z.of_nat (List.length (kids_of w n))))
  | Item n i => ANode (do c <- py_item (kids_of w n) i; Ok (Some c))
  | Index n c => ANum (py_index (kids_of w n) c 0)
  | Parent n => ANode (match node_at w n with Some x => Ok (t_parent x) | None => Err AttributeError end)
  | Find n k => ANode (SgfTreeModel.find (List.length (w_nodes w)) w n k)
  | HasProperty n k => ABool (has_property w n k)
  | GetRawList n k => ARaw (get_raw_list w n k)
  | Get n k => AValue (get_prop w n k)
  | GetMove n => AMove (get_move w n)
  | GetSetup n => ASetup (get_setup_stones w n)
  | SequenceAbove n => ANodes (get_sequence_above w n)
  | MainSequence g => ANodes (main_from w (root_of w g))
  | MainSequenceBelow n => ANodes (do l <- main_from w n; Ok (tl l))
  | LastNode g => ANode (last_of (main_from w (root_of w g)))
  | Serialise g wrap => AText (match game_at w g with Some x => serialise_game w x wrap | None => Err AttributeError end)
  | MainIter g => ANodes (main_from w (root_of w g))
  end.

(** sgf_grammar.py:399-411 [main_sequence_iter] of a Coarse_game_tree. *)
Fixpoint coarse_line (t : lctree) : list nat :=
  match t with
  | LC sq ch => sq ++ match ch with [] => [] | c :: _ => coarse_line c end
  end.

(** The node whose children a query looks at, by [len] or indexing (serialise:
    sgf_grammar.py:386-390). *)
Definition looks_at (lw : lworld) (q : query) : option nat :=
  match q with
  | Length n | Item n _ | Index n _ | MainSequenceBelow n => Some n
  | MainSequence g | LastNode g | Serialise g _ => option_map lg_root (lgame_at lw g)
  | _ => None
  end.

(** sgf.py:690-708 [main_sequence_iter], run to its end at once (see [iterator] below for
    the iterator object). *)
Definition lask (lw : lworld) (q : query) : lworld * answer :=
  match q with
  | MainIter g =>
      match lgame_at lw g with
      | Some x => match lg_coarse x with
                  | Some t => (lw, ANodes (Ok (coarse_line t)))
                  | None => (lw, ask (view lw) q)
                  end
      | None => (lw, ask (view lw) q)
      end
  | _ =>
      let lw' := match looks_at lw q with Some n => touch lw n | None => lw end in
      (lw', ask (view lw') q)
  end.

(** The iterator object: of an unexpanded root, a generator, which reads [_coarse_tree] when
    it is first advanced (sgf.py:480-483); else an iterator over a list made at once. *)
Inductive iterator : Type := Generator (g : nat) | Listed (r : res (list nat)).
Definition main_sequence_iter (lw : lworld) (g : nat) : iterator :=
  match lgame_at lw g with
  | Some x => match lg_coarse x with
              | Some _ => Generator g
              | None => Listed (main_from (view lw) (lg_root x))
              end
  | None => Listed (Err AttributeError)
  end.
(** The nodes it yields when it is advanced for the first time in [lw].  (Once started it
    goes through a tree that nobody changes.) *)
Definition yields (lw : lworld) (it : iterator) : res (list nat) :=
  match it with
  | Listed r => r
  | Generator g =>
      match lgame_at lw g with
      | Some x => match lg_coarse x with Some t => Ok (coarse_line t) | None => Err AttributeError end
      | None => Err AttributeError
      end
  end.

(** ** Histories *)

Inductive action : Type := Do (o : op) | Ask (q : query).
Inductive reply : Type := Done (r : res unit) | Answered (a : answer).

Definition lstep (lw : lworld) (a : action) : lworld * reply :=
  match a with
  | Do o => let '(lw', r) := lexec lw o in (lw', Done r)
  | Ask q => let '(lw', x) := lask lw q in (lw', Answered x)
  end.

Definition query_nodes (q : query) : list nat :=
  match q with
  | Length n | Item n _ | Parent n | Find n _ | HasProperty n _ | GetRawList n _ | Get n _ | GetMove n
  | GetSetup n | SequenceAbove n | MainSequenceBelow n => [n]
  | Index n c => [n; c]
  | _ => []
  end.
Definition query_games (q : query) : list nat :=
  match q with MainSequence g | LastNode g | Serialise g _ | MainIter g => [g] | _ => [] end.

(** The operations of Node; the others need a Tree_node. *)
Definition on_properties (a : action) : bool :=
  match a with
  | Do (SetRawList _ _ _ | SetRaw _ _ _ | SetProp _ _ _ | Unset _ _ | SetMove _ _ _ | SetSetup _ _ _ _ | AddComment _ _) => true
  | Ask (HasProperty _ _ | GetRawList _ _ | Get _ _ | GetMove _ | GetSetup _) => true
  | _ => false
  end.

(** What a program can do: it has a Tree_node for nodes that exist, and may have a Node
    (from [main_sequence_iter]) for any property map. *)
Definition lapplicable (lw : lworld) (a : action) : Prop :=
  let nodes := match a with Do o => op_nodes o | Ask q => query_nodes q end in
  let games := match a with Do o => op_games o | Ask q => query_games q end in
  Forall (fun n => exists s, slot_at lw n = Some s /\ (on_properties a = true \/ s_node s <> None)) nodes /\
  Forall (fun g => exists x, lgame_at lw g = Some x) games.

Definition empty_lworld : lworld := mkLW [] [].
Fixpoint lrun (lw : lworld) (l : list action) : lworld * list reply :=
  match l with
  | [] => (lw, [])
  | a :: r => let '(lw1, x) := lstep lw a in let '(lw2, xs) := lrun lw1 r in (lw2, x :: xs)
  end.
Fixpoint lapplicable_all (lw : lworld) (l : list action) : Prop :=
  match l with
  | [] => True
  | a :: r => lapplicable lw a /\ lapplicable_all (fst (lstep lw a)) r
  end.

(** The same programs on the eager model [SgfTreeModel]. *)
Definition estep (w : world) (a : action) : world * reply :=
  match a with
  | Do o => let '(w', r) := exec w o in (w', Done r)
  | Ask q => (w, Answered (ask w q))
  end.
Fixpoint erun (w : world) (l : list action) : world * list reply :=
  match l with
  | [] => (w, [])
  | a :: r => let '(w1, x) := estep w a in let '(w2, xs) := erun w1 r in (w2, x :: xs)
  end.
