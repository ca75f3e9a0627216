(** Model of gomill/sgf.py: games as mutable trees of nodes with property maps. *)
From Verif Require Import Base Bytes PyStr Dict SgfGrammarModel SgfGrammarSpec SgfTreeConvModel
  CommonModel SgfPropsModel.

(** ** Objects *)

(** sgf.py:26-29, 326-351 Node and Tree_node: the game, the parent, the child list and the
    property map.  Nodes are referred to by their address in the heap. *)
Record tnode : Type := mkT {
  t_owner : nat;
  t_parent : option nat;
  t_kids : list nat;
  t_props : pmap
}.

(** sgf.py:486-526 Sgf_game: the root node and the presenter (which holds the size). *)
Record game : Type := mkGame { g_root : nat; g_pres : presenter }.

(** All the objects a program has created. *)
Record world : Type := mkW { w_nodes : list tnode; w_games : list game }.

Definition node_at (w : world) (n : nat) : option tnode := nth_error (w_nodes w) n.
Definition game_at (w : world) (g : nat) : option game := nth_error (w_games w) g.

Definition g_size (g : game) : Z := c_size (pr_context (g_pres g)).

(** Overwrite one node. *)
Definition set_node (w : world) (n : nat) (x : tnode) : world :=
  mkW (update n x (w_nodes w)) (w_games w).

Definition with_kids (l : list nat) (x : tnode) : tnode := mkT (t_owner x) (t_parent x) l (t_props x).
Definition with_parent (p : nat) (x : tnode) : tnode := mkT (t_owner x) (Some p) (t_kids x) (t_props x).
Definition with_props (m : pmap) (x : tnode) : tnode := mkT (t_owner x) (t_parent x) (t_kids x) m.

(** [l.insert(i, x)]: negative indexes count from the end, out of range indexes are
    clamped. *)
Definition py_insert {A} (i : Z) (x : A) (l : list A) : list A :=
  let len := Z.of_nat (List.length l) in
  let i1 := if i <? 0 then Z.max 0 (i + len) else Z.min i len in
  firstn (Z.to_nat i1) l ++ x :: skipn (Z.to_nat i1) l.

(** [append] when the index is None, otherwise [insert]. *)
Definition place_at {A} (index : option Z) (x : A) (l : list A) : list A :=
  match index with None => l ++ [x] | Some i => py_insert i x l end.

(** [l.remove(x)] (ValueError if absent). *)
Fixpoint py_remove (x : nat) (l : list nat) : option (list nat) :=
  match l with
  | [] => None
  | y :: r => if Nat.eqb x y then Some r else option_map (cons y) (py_remove x r)
  end.

(** An operation on a world: the new world, and the result or exception.  Operations on
    addresses that don't exist have no Python counterpart; they do nothing here, and no
    theorem is about them. *)
Definition outcome : Type := (world * res unit)%type.
Definition done (w : world) : outcome := (w, Ok tt).
Definition raise (w : world) (e : exn) : outcome := (w, Err e).
Definition no_object (w : world) : outcome := (w, Err AttributeError).

(** ** Tree editing *)

(** sgf.py:361-375 [new_child] with the property map [props] (the API passes the empty one).
    The new node's address is the next free one. *)
Definition new_node (w : world) (p : nat) (index : option Z) (props : pmap) : world :=
  match node_at w p with
  | None => w
  | Some x =>
      let child := List.length (w_nodes w) in
      set_node (mkW (w_nodes w ++ [mkT (t_owner x) (Some p) [] props]) (w_games w))
               p (with_kids (place_at index child (t_kids x)) x)
  end.

Definition new_child (w : world) (p : nat) (index : option Z) : outcome :=
  match node_at w p with
  | None => no_object w
  | Some _ => done (new_node w p index [])
  end.

(** [n.parent._children.remove(n)] (sgf.py:381, 406). *)
Definition unlink (w : world) (n p : nat) : res world :=
  match node_at w p with
  | None => Err AttributeError
  | Some y =>
      match py_remove n (t_kids y) with
      | None => Err ValueError
      | Some l => Ok (set_node w p (with_kids l y))
      end
  end.

(** sgf.py:377-381 [delete]. *)
Definition delete (w : world) (n : nat) : outcome :=
  match node_at w n with
  | None => no_object w
  | Some x =>
      match t_parent x with
      | None => raise w ValueError
      | Some p =>
          match unlink w n p with
          | Err e => raise w e
          | Ok w' => done w'
          end
      end
  end.

(** sgf.py:396-402: the [while True] loop: walk up from [n]; [true] if it meets [self]. *)
Fixpoint walk_meets (fuel : nat) (w : world) (n self : nat) : res bool :=
  if Nat.eqb n self then Ok true
  else
    match node_at w n with
    | None => Err AttributeError
    | Some x =>
        match t_parent x with
        | None => Ok false
        | Some p =>
            match fuel with
            | O => Err OutOfFuel
            | S fuel' => walk_meets fuel' w p self
            end
        end
    end.

(** sgf.py:383-411 [reparent]. *)
Definition reparent (w : world) (n np : nat) (index : option Z) : outcome :=
  match node_at w n, node_at w np with
  | Some x, Some y =>
      if negb (Nat.eqb (t_owner y) (t_owner x)) then raise w ValueError
      else
        match walk_meets (List.length (w_nodes w)) w np n with
        | Err e => raise w e
        | Ok true => raise w ValueError
        | Ok false =>
            match t_parent x with
            | None => raise w AttributeError        (* None._children *)
            | Some p =>
                match unlink w n p with
                | Err e => raise w e
                | Ok w1 =>
                    let w2 := match node_at w1 n with
                              | None => w1
                              | Some x1 => set_node w1 n (with_parent np x1)
                              end in
                    match node_at w2 np with
                    | None => no_object w
                    | Some y2 => done (set_node w2 np (with_kids (place_at index n (t_kids y2)) y2))
                    end
                end
            end
        end
  | _, _ => no_object w
  end.

(** ** Navigation *)

(** sgf.py:413-424 [find]. *)
Fixpoint find (fuel : nat) (w : world) (n : nat) (k : bytes) : res (option nat) :=
  match node_at w n with
  | None => Err AttributeError
  | Some x =>
      if dmem k (t_props x) then Ok (Some n)
      else match t_parent x with
           | None => Ok None
           | Some p => match fuel with O => Err OutOfFuel | S f => find f w p k end
           end
  end.

(** sgf.py:644-655 [get_main_sequence], 657-671 [get_main_sequence_below] (from [n] on; a node with no children is false). *)
Fixpoint main_line (fuel : nat) (w : world) (n : nat) : res (list nat) :=
  match node_at w n with
  | None => Err AttributeError
  | Some x =>
      match t_kids x with
      | [] => Ok [n]
      | c :: _ => match fuel with
                  | O => Err OutOfFuel
                  | S f => do l <- main_line f w c; Ok (n :: l)
                  end
      end
  end.

(** sgf.py:673-688 [get_sequence_above], before [reverse()]. *)
Fixpoint ancestors (fuel : nat) (w : world) (n : nat) : res (list nat) :=
  match node_at w n with
  | None => Err AttributeError
  | Some x =>
      match t_parent x with
      | None => Ok []
      | Some p => match fuel with
                  | O => Err OutOfFuel
                  | S f => do l <- ancestors f w p; Ok (p :: l)
                  end
      end
  end.

Definition get_sequence_above (w : world) (n : nat) : res (list nat) :=
  do l <- ancestors (List.length (w_nodes w)) w n; Ok (rev l).

(** ** Properties *)

(** The presenter of a node (sgf.py:351: the parent's, so the game's). *)
Definition pres_of (w : world) (x : tnode) : option presenter :=
  option_map g_pres (game_at w (t_owner x)).

Definition put_props (w : world) (n : nat) (x : tnode) (m : pmap) : world :=
  set_node w n (with_props m x).

(** sgf.py:105-108 [_set_raw_list]. *)
Definition set_raw_list_core (w : world) (n : nat) (x : tnode) (pr : presenter) (k : bytes)
    (vs : list bytes) : outcome :=
  if bytes_eqb k (str "SZ") &&
     negb (match vs with [v] => bytes_eqb v (str_int (c_size (pr_context pr))) | _ => false end)
  then raise w ValueError
  else done (put_props w n x (dset k vs (t_props x))).

(** Look up a node and its presenter. *)
Definition on_node (w : world) (n : nat) (f : tnode -> presenter -> outcome) : outcome :=
  match node_at w n with
  | None => no_object w
  | Some x => match pres_of w x with None => no_object w | Some pr => f x pr end
  end.

(** sgf.py:121-144 [set_raw_list]; 146-161 [set_raw]. *)
Definition set_raw_list (w : world) (n : nat) (k : bytes) (vs : list bytes) : outcome :=
  on_node w n (fun x pr =>
    if negb (is_valid_property_identifier k) then raise w ValueError
    else match vs with
         | [] => raise w ValueError
         | _ => if forallb is_valid_property_value vs then set_raw_list_core w n x pr k vs
                else raise w ValueError
         end).

Definition set_raw (w : world) (n : nat) (k v : bytes) : outcome :=
  on_node w n (fun x pr =>
    if negb (is_valid_property_identifier k) then raise w ValueError
    else if negb (is_valid_property_value v) then raise w ValueError
    else set_raw_list_core w n x pr k [v]).

(** sgf.py:180-196 [set]. *)
Definition set_prop (w : world) (n : nat) (k : bytes) (v : pvalue) : outcome :=
  on_node w n (fun x pr =>
    if negb (is_valid_property_identifier k) then raise w ValueError
    else match serialise pr k v with
         | Err e => raise w e
         | Ok vs => set_raw_list_core w n x pr k vs
         end).

(** sgf.py:110-118 [unset]. *)
Definition unset (w : world) (n : nat) (k : bytes) : outcome :=
  on_node w n (fun x pr =>
    if bytes_eqb k (str "SZ") && negb (c_size (pr_context pr) =? 19) then raise w ValueError
    else if dmem k (t_props x) then done (put_props w n x (ddel k (t_props x)))
    else raise w KeyError).

(** [if k in self._property_map: del self._property_map[k]]. *)
Definition drop_keys (w : world) (n : nat) (ks : list bytes) : world :=
  match node_at w n with
  | None => w
  | Some x => put_props w n x (fold_left (fun m k => ddel k m) ks (t_props x))
  end.

(** Sequencing: stop at the first exception. *)
Definition then_do (o : outcome) (f : world -> outcome) : outcome :=
  match o with (w, Ok _) => f w | (w, Err e) => (w, Err e) end.

Definition move_key (c : colour) : bytes := match c with Black => str "B" | White => str "W" end.
Definition move_value (m : gmove) : pvalue := match m with None => VNone | Some p => VPoint p end.

(** sgf.py:264-279 [set_move]. *)
Definition set_move (w : world) (n : nat) (c : colour) (m : gmove) : outcome :=
  set_prop (drop_keys w n [str "B"; str "W"]) n (move_key c) (move_value m).

(** sgf.py:281-300 [set_setup_stones]. *)
Definition set_points (w : world) (n : nat) (k : bytes) (l : list point) : outcome :=
  match l with [] => done w | _ => set_prop w n k (VPoints l) end.

Definition set_setup_stones (w : world) (n : nat) (black white empty : list point) : outcome :=
  then_do (set_points (drop_keys w n [str "AB"; str "AW"; str "AE"]) n (str "AB") black) (fun w1 =>
  then_do (set_points w1 n (str "AW") white) (fun w2 =>
  set_points w2 n (str "AE") empty)).

(** ** Reading *)

(** sgf.py:47-49 [has_property], 59-73 [get_raw_list], 75-89 [get_raw]. *)
Definition has_property (w : world) (n : nat) (k : bytes) : bool :=
  match node_at w n with None => false | Some x => dmem k (t_props x) end.

Definition get_raw_list (w : world) (n : nat) (k : bytes) : res (list bytes) :=
  match node_at w n with
  | None => Err AttributeError
  | Some x => match dget k (t_props x) with None => Err KeyError | Some vs => Ok vs end
  end.

Definition get_raw (w : world) (n : nat) (k : bytes) : res bytes :=
  do vs <- get_raw_list w n k;
  match vs with [] => Err IndexError | v :: _ => Ok v end.

(** sgf.py:164-178 [get]. *)
Definition get_prop (w : world) (n : nat) (k : bytes) : res pvalue :=
  do vs <- get_raw_list w n k;
  match node_at w n with
  | None => Err AttributeError
  | Some x => match pres_of w x with None => Err AttributeError | Some pr => interpret pr k vs end
  end.

(** sgf.py:198-217 [get_raw_move]. *)
Definition get_raw_move (w : world) (n : nat) : res (option (colour * bytes)) :=
  match node_at w n with
  | None => Err AttributeError
  | Some x =>
      match dget (str "B") (t_props x) with
      | Some (v :: _) => Ok (Some (Black, v))
      | Some [] => Err IndexError
      | None => match dget (str "W") (t_props x) with
                | Some (v :: _) => Ok (Some (White, v))
                | Some [] => Err IndexError
                | None => Ok None
                end
      end
  end.

Definition size_of (w : world) (n : nat) : Z :=
  match node_at w n with
  | None => 0
  | Some x => match pres_of w x with None => 0 | Some pr => c_size (pr_context pr) end
  end.

(** sgf.py:219-235 [get_move]. *)
Definition get_move (w : world) (n : nat) : res (option (colour * gmove)) :=
  do r <- get_raw_move w n;
  match r with
  | None => Ok None
  | Some (c, raw) => do m <- interpret_go_point raw (size_of w n); Ok (Some (c, m))
  end.

(** sgf.py:237-257 [get_setup_stones]; a property that was registered with another type
    would give a value of another kind (TypeError here). *)
Definition get_points (w : world) (n : nat) (k : bytes) : res (list point) :=
  match get_prop w n k with
  | Ok (VPoints l) => Ok l
  | Ok _ => Err TypeError
  | Err KeyError => Ok []
  | Err e => Err e
  end.
Definition get_setup_stones (w : world) (n : nat) : res (list point * list point * list point) :=
  do b <- get_points w n (str "AB");
  do wh <- get_points w n (str "AW");
  do e <- get_points w n (str "AE");
  Ok (b, wh, e).

(** sgf.py:259-262 [has_setup_stones]. *)
Definition has_setup_stones (w : world) (n : nat) : bool :=
  has_property w n (str "AB") || has_property w n (str "AW") || has_property w n (str "AE").

(** sgf.py:302-315 [add_comment_text]. *)
Definition add_comment_text (w : world) (n : nat) (text : bytes) : outcome :=
  if has_property w n (str "C") then
    match get_prop w n (str "C") with
    | Err e => raise w e
    | Ok (VText old) => set_prop w n (str "C") (VText (old ++ [char_lf; char_lf] ++ text))
    | Ok _ => raise w TypeError
    end
  else set_prop w n (str "C") (VText text).

(** ** Games *)

(** sgf_properties.py:16-25: the normalised names of the modelled encodings. *)
Definition encoding_name (e : encoding) : bytes :=
  match e with UTF_8 => str "UTF-8" | ISO_8859_1 => str "ISO-8859-1" | ASCII => str "ASCII" end.

(** Allocate a game with a root node. *)
Definition alloc_game (w : world) (size : Z) (e : encoding) (props : pmap) : world :=
  mkW (w_nodes w ++ [mkT (List.length (w_games w)) None [] props])
      (w_games w ++ [mkGame (List.length (w_nodes w)) (new_presenter size e)]).

(** sgf.py:507-526 [Sgf_game(size, encoding)]. *)
Definition new_game (w : world) (size : Z) (e : encoding) : outcome :=
  if negb ((1 <=? size) && (size <=? 26)) then raise w ValueError
  else
    let root := List.length (w_nodes w) in
    then_do (set_raw (alloc_game w size e []) root (str "FF") (str "4")) (fun w1 =>
    then_do (set_raw w1 root (str "GM") (str "1")) (fun w2 =>
    then_do (set_raw w2 root (str "SZ") (str_int size)) (fun w3 =>
    set_raw w3 root (str "CA") (encoding_name e)))).

(** The node tree of a coarse tree (what [make_tree] builds: theorem C15_make_tree; the
    expansion of a loaded game is lazy in the code, sgf.py:452-481: [SgfLazyModel], theorem
    C68_lazy_is_unobservable). *)
Fixpoint chain_nodes (sq : list pmap) (ks : list ntree) : ntree :=
  match sq with
  | [] => NT [] ks
  | m :: sq' => match sq' with [] => NT m ks | _ => NT m [chain_nodes sq' ks] end
  end.
Fixpoint ntree_of (t : ctree) : ntree := match t with CT sq ch => chain_nodes sq (map ntree_of ch) end.

(** Build the nodes of [t] below [parent]. *)
Fixpoint load_below (t : ntree) (parent : nat) (w : world) : world :=
  match t with
  | NT m ks =>
      let child := List.length (w_nodes w) in
      fold_left (fun w' k => load_below k child w') ks (new_node w parent None m)
  end.

(** sgf.py:528-568 [from_coarse_game_tree].  [e] is the encoding named by [override] or by
    the CA property or the default (name resolution is not modelled). *)
Definition load_game (w : world) (t : ctree) (e : encoding) (override : bool) : outcome :=
  match c_sequence t with
  | [] => raise w IndexError
  | m :: _ =>
      match (match dget (str "SZ") m with
             | None => Ok 19
             | Some [] => Err IndexError
             | Some (s :: _) => py_int s
             end) with
      | Err ex => raise w ex
      | Ok size =>
          if negb ((1 <=? size) && (size <=? 26)) then raise w ValueError
          else
            let root := List.length (w_nodes w) in
            match ntree_of t with
            | NT props ks =>
                let w1 := fold_left (fun w' k => load_below k root w') ks (alloc_game w size e props) in
                if override then set_raw w1 root (str "CA") (encoding_name e) else done w1
            end
      end
  end.

(** sgf.py:570-583 [from_string]. *)
Definition load_string (w : world) (s : bytes) (e : encoding) (override : bool) : outcome :=
  match parse_sgf_game s with
  | Err ex => raise w ex
  | Ok t => load_game w t e override
  end.

(** sgf.py:617-619: what [make_coarse_game_tree] sees of the nodes below [n]. *)
Fixpoint tree_data (fuel : nat) (w : world) (n : nat) : res ntree :=
  match fuel with
  | O => Err OutOfFuel
  | S f => match node_at w n with
           | None => Err AttributeError
           | Some x => do ks <- mapm (tree_data f w) (t_kids x); Ok (NT (t_props x) ks)
           end
  end.

(** Following the child lists of the Coarse_game_tree objects. *)
Fixpoint read_coarse (fuel : nat) (h : gheap) (i : nat) : res ctree :=
  match fuel with
  | O => Err OutOfFuel
  | S f => match nth_error h i with
           | None => Err AttributeError
           | Some o => do ks <- mapm (read_coarse f h) (g_kids o); Ok (CT (g_seq o) ks)
           end
  end.

(** sgf.py:584-619 [serialise], when the target encoding is the raw property encoding
    (otherwise the text is transcoded: [SgfCharsetModel.save_game]). *)
Definition serialise_game (w : world) (g : game) (wrap : option Z) : res bytes :=
  do nt <- tree_data (List.length (w_nodes w)) w (g_root g);
  do h <- make_coarse_game_tree nt;
  do ct <- read_coarse (ntree_size nt) h O;
  serialise_game_tree ct wrap.

(** Presenter customisation through [get_property_presenter()]. *)
Definition set_presenter (w : world) (g : nat) (f : presenter -> res presenter) : outcome :=
  match game_at w g with
  | None => no_object w
  | Some x => match f (g_pres x) with
              | Err e => raise w e
              | Ok p => done (mkW (w_nodes w) (update g (mkGame (g_root x) p) (w_games w)))
              end
  end.

(** ** Histories *)

Inductive op : Type :=
| NewGame (size : Z) (e : encoding)
| LoadString (s : bytes) (e : encoding) (override : bool)
| NewChild (n : nat) (index : option Z)
| Delete (n : nat)
| Reparent (n np : nat) (index : option Z)
| SetRawList (n : nat) (k : bytes) (vs : list bytes)
| SetRaw (n : nat) (k v : bytes)
| SetProp (n : nat) (k : bytes) (v : pvalue)
| Unset (n : nat) (k : bytes)
| SetMove (n : nat) (c : colour) (m : gmove)
| SetSetup (n : nat) (black white empty : list point)
| AddComment (n : nat) (text : bytes)
| Register (g : nat) (k : bytes) (t : ptype)
| Deregister (g : nat) (k : bytes)
| SetPrivate (g : nat) (t : option ptype).

Definition exec (w : world) (o : op) : outcome :=
  match o with
  | NewGame size e => new_game w size e
  | LoadString s e ov => load_string w s e ov
  | NewChild n i => new_child w n i
  | Delete n => delete w n
  | Reparent n np i => reparent w n np i
  | SetRawList n k vs => set_raw_list w n k vs
  | SetRaw n k v => set_raw w n k v
  | SetProp n k v => set_prop w n k v
  | Unset n k => unset w n k
  | SetMove n c m => set_move w n c m
  | SetSetup n b wh e => set_setup_stones w n b wh e
  | AddComment n t => add_comment_text w n t
  | Register g k t => set_presenter w g (fun p => Ok (register_property k t p))
  | Deregister g k => set_presenter w g (deregister_property k)
  | SetPrivate g t => set_presenter w g (fun p => Ok (set_private_property_type t p))
  end.

(** The objects an operation is applied to. *)
Definition op_nodes (o : op) : list nat :=
  match o with
  | NewGame _ _ | LoadString _ _ _ | Register _ _ _ | Deregister _ _ | SetPrivate _ _ => []
  | NewChild n _ | Delete n | SetRawList n _ _ | SetRaw n _ _ | SetProp n _ _ | Unset n _
  | SetMove n _ _ | SetSetup n _ _ _ | AddComment n _ => [n]
  | Reparent n np _ => [n; np]
  end.
Definition op_games (o : op) : list nat :=
  match o with Register g _ _ | Deregister g _ | SetPrivate g _ => [g] | _ => [] end.

Definition applicable (w : world) (o : op) : Prop :=
  Forall (fun n => (n < List.length (w_nodes w))%nat) (op_nodes o) /\
  Forall (fun g => (g < List.length (w_games w))%nat) (op_games o).

Definition empty_world : world := mkW [] [].

(** Worlds a program can reach; failed operations are part of the history too. *)
Inductive reachable_world : world -> Prop :=
| rw_empty : reachable_world empty_world
| rw_step w o : reachable_world w -> applicable w o -> reachable_world (fst (exec w o)).

(** A later world of the same program. *)
Inductive later (w : world) : world -> Prop :=
| later_refl : later w w
| later_step w' o : later w w' -> applicable w' o -> later w (fst (exec w' o)).
