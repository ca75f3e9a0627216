(** Property theorems for gomill/sgf.py (C19, C20, C47). *)
From Verif Require Import Base Bytes PyStr Dict SgfGrammarModel SgfGrammarSpec CommonModel BoardSpec SgfPropsModel
  SgfPropsSpec SgfValueSpec SgfTreeModel SgfTreeSpec SgfTreeMainProofs SgfNavProofs SgfSaveProofs.

(** ** C19: editing keeps a tree *)

(** In every world a program can reach, by any calls of any operations (successful or
    not), every game is a tree. *)
Theorem C19_every_game_is_a_tree :
  forall w i g, reachable_world w -> game_at w i = Some g -> game_is_tree w i (g_root g).
Proof. exact C19_tree_proof. Qed.
Print Assumptions C19_every_game_is_a_tree.

(** [new_child]: the new node is an empty leaf, put at the given place of the child list;
    nothing else changes. *)
Theorem C19_new_child_inserts_a_leaf :
  forall w p index, reachable_world w -> (p < List.length (w_nodes w))%nat ->
  let c := List.length (w_nodes w) in
  exists w', new_child w p index = (w', Ok tt) /\
    parent_is w' c (Some p) /\ tree_of w' c (R c []) /\ data_of w' c (NT [] []) /\
    (forall g, owner_is w p g -> owner_is w' c g) /\
    (forall n t, tree_of w n t -> exists t', inserted p index (R c []) t t' /\ tree_of w' n t') /\
    w_games w' = w_games w /\
    (forall n x, node_at w n = Some x -> exists x', node_at w' n = Some x' /\
       t_props x' = t_props x /\ t_owner x' = t_owner x /\ t_parent x' = t_parent x).
Proof. exact C19_new_child_proof. Qed.
Print Assumptions C19_new_child_inserts_a_leaf.

(** [delete]: cuts exactly that subtree; on a root or a node already cut it raises
    ValueError and changes nothing. *)
Theorem C19_delete_cuts_the_subtree :
  forall w n, reachable_world w -> (n < List.length (w_nodes w))%nat ->
  (attached w n -> exists w', delete w n = (w', Ok tt) /\ same_data w w' /\ ~ attached w' n /\
     (forall m t, tree_of w m t -> tree_of w' m (cut n t)) /\
     (forall t, tree_of w n t -> tree_of w' n t)) /\
  (~ attached w n -> delete w n = (w, Err ValueError)).
Proof. exact C19_delete_proof. Qed.
Print Assumptions C19_delete_cuts_the_subtree.

(** [reparent]: moves the subtree, unless the node is a root or was cut, the new parent
    belongs to another game, or is below the node; then it raises ValueError and changes
    nothing. *)
Theorem C19_reparent_moves_the_subtree :
  forall w n np index, reachable_world w ->
  (n < List.length (w_nodes w))%nat -> (np < List.length (w_nodes w))%nat ->
  let allowed := attached w n /\ (exists g, owner_is w n g /\ owner_is w np g) /\ ~ above w n np in
  (allowed -> exists w', reparent w n np index = (w', Ok tt) /\ same_data w w' /\
     parent_is w' n (Some np) /\
     (forall m q, m <> n -> parent_is w m q -> parent_is w' m q) /\
     (forall tn m t, tree_of w n tn -> tree_of w m t ->
        exists t', inserted np index tn (cut n t) t' /\ tree_of w' m t') /\
     (forall tn, tree_of w n tn -> tree_of w' n tn)) /\
  (~ allowed -> reparent w n np index = (w, Err ValueError)).
Proof. exact C19_reparent_proof. Qed.
Print Assumptions C19_reparent_moves_the_subtree.

(** Within a game, reparent fails only when the new parent is in the moved subtree;
    otherwise it keeps the set of nodes of the game and the subtree it moves. *)
Theorem C19_reparent_keeps_the_nodes :
  forall w i g t n np index tn, reachable_world w -> game_at w i = Some g ->
  tree_of w (g_root g) t -> In n (labels t) -> In np (labels t) -> tree_of w n tn ->
  (In np (labels tn) -> reparent w n np index = (w, Err ValueError)) /\
  (~ In np (labels tn) -> exists w' t', reparent w n np index = (w', Ok tt) /\ same_data w w' /\
     tree_of w' (g_root g) t' /\ inserted np index tn (cut n t) t' /\
     (forall m, In m (labels t') <-> In m (labels t)) /\ tree_of w' n tn).
Proof. exact C19_reparent_tree_proof. Qed.
Print Assumptions C19_reparent_keeps_the_nodes.

(** Navigation: get_main_sequence is the first-child path, get_sequence_above the path from
    the root, and find looks along it from the node upwards. *)
Theorem C19_main_sequence :
  forall w i g, reachable_world w -> game_at w i = Some g ->
  exists t, tree_of w (g_root g) t /\ main_line (List.length (w_nodes w)) w (g_root g) = Ok (leftmost t).
Proof. exact C19_main_line_proof. Qed.
Print Assumptions C19_main_sequence.

Theorem C19_sequence_above_and_find :
  forall w i g t n, reachable_world w -> game_at w i = Some g ->
  tree_of w (g_root g) t -> In n (labels t) ->
  exists l, get_sequence_above w n = Ok l /\ path_to n t l /\
    forall k, SgfTreeModel.find (List.length (w_nodes w)) w n k =
      Ok (List.find (fun m => has_property w m k) (rev (l ++ [n]))).
Proof. exact C19_sequence_above_proof. Qed.
Print Assumptions C19_sequence_above_and_find.

(** *** A concrete history *)
Fixpoint run_ops (w : world) (os : list op) : world :=
  match os with [] => w | o :: r => run_ops (fst (exec w o)) r end.
Fixpoint applicable_ops (w : world) (os : list op) : Prop :=
  match os with [] => True | o :: r => applicable w o /\ applicable_ops (fst (exec w o)) r end.
Lemma run_reachable os : forall w, reachable_world w -> applicable_ops w os -> reachable_world (run_ops w os).
Proof. induction os as [|o os IH]; simpl; auto. intros w R [A B]. apply IH; auto. constructor; auto. Qed.

(** Two games; nodes 0-4 in the first (0 - (1 - (2), 3 - (4))), root 5 in the second. *)
Definition demo_ops : list op :=
  [NewGame 9 UTF_8; NewChild 0 None; NewChild 1 None; NewChild 0 None; NewChild 3 (Some (-7));
   LoadString (str "(;SZ[19]AB[aa][cc:dd](;B[qd];W[dd])(;C[hi\]]))") UTF_8 false;
   SetMove 1 Black (Some (2, 3)); SetSetup 0 [(0, 0); (4, 4)] [(8, 8)] []; Reparent 4 2 (Some 0);
   Reparent 1 2 None; Delete 0; SetRaw 0 (str "SZ") (str "13"); Reparent 3 5 None].
Definition demo : world := Eval vm_compute in run_ops empty_world demo_ops.

Ltac run_world := apply run_reachable; [constructor|
  vm_compute; repeat split; repeat constructor; lia].

Example C19_demo_reachable : reachable_world demo.
Proof.
  assert (demo = run_ops empty_world demo_ops) as -> by (vm_compute; reflexivity). run_world.
Qed.
Example C19_demo_tree : tree_of demo 0 (R 0 [R 1 [R 2 [R 4 []]]; R 3 []]).
Proof. repeat (econstructor; try reflexivity). Qed.
Example C19_demo_tree2 : tree_of demo 5 (R 5 [R 6 [R 7 []]; R 8 []]).
Proof. repeat (econstructor; try reflexivity). Qed.
(** The last five operations of the history, all but the first of them, failed. *)
Example C19_demo_errors :
  snd (reparent demo 1 2 None) = Err ValueError /\ snd (delete demo 0) = Err ValueError /\
  snd (set_raw demo 0 (str "SZ") (str "13")) = Err ValueError /\ snd (reparent demo 3 5 None) = Err ValueError.
Proof. vm_compute. auto. Qed.
(** The hypotheses of the editing theorems are met by the demo world. *)
Example C19_demo_attached : attached demo 2 /\ ~ attached demo 0 /\ ~ above demo 2 3.
Proof.
  split; [|split].
  - exists 1%nat, [2%nat]. split; [|split; [|simpl; auto]]; eexists; split; reflexivity.
  - intros (p & l & (x & E & P) & _). vm_compute in E. injection E as <-. discriminate.
  - intros A. inversion A as [|m p P A1]; subst. destruct P as (x & E & P). vm_compute in E. injection E as <-.
    vm_compute in P. injection P as <-. inversion A1 as [|m p P A2]; subst. destruct P as (x & E & P).
    vm_compute in E. injection E as <-. discriminate.
Qed.
Example C19_demo_move : tree_of (fst (reparent demo 2 3 (Some 0))) 0 (R 0 [R 1 []; R 3 [R 2 [R 4 []]]]).
Proof. repeat (econstructor; try reflexivity). Qed.
Example C19_demo_main : main_line 9 demo 0 = Ok [0; 1; 2; 4]%nat /\ get_sequence_above demo 4 = Ok [0; 1; 2]%nat /\
  SgfTreeModel.find 9 demo 4 (str "B") = Ok (Some 1%nat) /\ SgfTreeModel.find 9 demo 4 (str "SZ") = Ok (Some 0%nat).
Proof. vm_compute. auto. Qed.

(** ** C20: property maps *)

(** [set_raw_list] succeeds exactly for a valid identifier and valid values that do not
    change SZ; then [get_raw_list] gives those values back, and no other property, node or
    game changes.  Otherwise it raises ValueError and changes nothing. *)
Theorem C20_set_raw_list :
  forall w n k vs, reachable_world w -> (n < List.length (w_nodes w))%nat ->
  let ok := good_ident k /\ vs <> [] /\ Forall good_value vs /\
            (k = str "SZ" -> vs = [str_int (size_of w n)]) in
  (ok -> exists w', set_raw_list w n k vs = (w', Ok tt) /\ get_raw_list w' n k = Ok vs /\
           only_changes w n [k] w') /\
  (~ ok -> set_raw_list w n k vs = (w, Err ValueError)).
Proof. exact C20_set_raw_list_proof. Qed.
Print Assumptions C20_set_raw_list.

Theorem C20_set_raw :
  forall w n k v, reachable_world w -> (n < List.length (w_nodes w))%nat ->
  set_raw w n k v = set_raw_list w n k [v].
Proof. exact C20_set_raw_proof. Qed.
Print Assumptions C20_set_raw.

(** [set] with a proper value of the property's type: [get] gives the value back. *)
Theorem C20_set_then_get :
  forall w n k v t c, reachable_world w -> (n < List.length (w_nodes w))%nat ->
  good_ident k -> k <> str "SZ" -> type_of w n k t -> context_of w n c -> c_size c <= 25 -> value_ok c t v ->
  exists w' v', set_prop w n k v = (w', Ok tt) /\ only_changes w n [k] w' /\
    get_prop w' n k = Ok v' /\ reads_back t v v'.
Proof. exact C20_set_proof. Qed.
Print Assumptions C20_set_then_get.

Theorem C20_failed_set_changes_nothing :
  forall w n k v e w', reachable_world w -> (n < List.length (w_nodes w))%nat ->
  set_prop w n k v = (w', Err e) -> w' = w.
Proof. exact C20_set_fails_proof. Qed.
Print Assumptions C20_failed_set_changes_nothing.

Theorem C20_unset :
  forall w n k, reachable_world w -> (n < List.length (w_nodes w))%nat ->
  (k = str "SZ" /\ size_of w n <> 19 -> unset w n k = (w, Err ValueError)) /\
  (~ (k = str "SZ" /\ size_of w n <> 19) ->
     if has_property w n k then
       exists w', unset w n k = (w', Ok tt) /\ get_raw_list w' n k = Err KeyError /\ only_changes w n [k] w'
     else unset w n k = (w, Err KeyError)).
Proof. exact C20_unset_proof. Qed.
Print Assumptions C20_unset.

(** The size of a game never changes, whatever is done to any game, and it always agrees
    with the root's SZ property. *)
Theorem C20_size_is_constant :
  forall w w' i g, reachable_world w -> later w w' -> game_at w i = Some g ->
  exists g', game_at w' i = Some g' /\ g_root g' = g_root g /\ g_size g' = g_size g /\
    1 <= g_size g' <= 26 /\
    match get_raw_list w' (g_root g') (str "SZ") with
    | Ok vs => exists v r, vs = v :: r /\ py_int v = Ok (g_size g')
    | Err e => e = KeyError /\ g_size g' = 19
    end.
Proof. exact C20_size_proof. Qed.
Print Assumptions C20_size_is_constant.

(** [set_move] then [get_move]. *)
Theorem C20_set_move_then_get_move :
  forall w n co m x, reachable_world w -> type_of w n (move_key co) PT_move ->
  context_of w n x -> c_size x <= 25 -> (forall p, m = Some p -> on_board (c_size x) p) ->
  exists w', set_move w n co m = (w', Ok tt) /\ only_changes w n [str "B"; str "W"] w' /\
    get_move w' n = Ok (Some (co, m)) /\
    get_raw_list w' n (move_key (match co with Black => White | White => Black end)) = Err KeyError.
Proof. exact C20_set_move_proof. Qed.
Print Assumptions C20_set_move_then_get_move.

(** [set_setup_stones] then [get_setup_stones]. *)
Theorem C20_set_setup_then_get_setup :
  forall w n b wh e c, reachable_world w ->
  type_of w n (str "AB") PT_point_list -> type_of w n (str "AW") PT_point_list ->
  type_of w n (str "AE") PT_point_list -> context_of w n c -> c_size c <= 25 ->
  Forall (on_board (c_size c)) b -> Forall (on_board (c_size c)) wh -> Forall (on_board (c_size c)) e ->
  exists w' b' wh' e', set_setup_stones w n b wh e = (w', Ok tt) /\
    only_changes w n [str "AB"; str "AW"; str "AE"] w' /\
    get_setup_stones w' n = Ok (b', wh', e') /\
    same_points b b' /\ same_points wh wh' /\ same_points e e'.
Proof. exact C20_set_setup_proof. Qed.
Print Assumptions C20_set_setup_then_get_setup.

(** A departure worth knowing: unlike [set], a [set_move] that raises is not a no-op; it has
    already removed the node's move. *)
Theorem C20_failed_set_move_removes_the_move :
  forall w n co m e w', reachable_world w -> (n < List.length (w_nodes w))%nat ->
  set_move w n co m = (w', Err e) ->
  only_changes w n [str "B"; str "W"] w' /\ get_move w' n = Ok None.
Proof. exact C20_set_move_fails_proof. Qed.
Print Assumptions C20_failed_set_move_removes_the_move.

Example C20_demo_move : get_move demo 1 = Ok (Some (Black, Some (2, 3))).
Proof. vm_compute. reflexivity. Qed.
Example C20_demo_setup : get_setup_stones demo 0 = Ok ([(4, 4); (0, 0)], [(8, 8)], []) \/
  get_setup_stones demo 0 = Ok ([(0, 0); (4, 4)], [(8, 8)], []).
Proof. vm_compute. auto. Qed.
Example C20_demo_lost_move :
  let o := set_move demo 1 White (Some (9, 0)) in
  snd o = Err ValueError /\ get_move (fst o) 1 = Ok None.
Proof. vm_compute. auto. Qed.
Example C20_demo_types : type_of demo 1 (str "B") PT_move /\ type_of demo 1 (str "AE") PT_point_list /\
  context_of demo 1 (mkCtx 9 UTF_8).
Proof. split; [|split]; do 2 eexists; (split; [reflexivity|split; reflexivity]). Qed.
Example C20_demo_set : snd (set_raw_list demo 4 (str "XX") [str "a\]b"; str ""]) = Ok tt /\
  snd (set_raw_list demo 4 (str "XX") [str "a]b"]) = Err ValueError /\
  snd (set_raw_list demo 4 (str "Xx") [str "a"]) = Err ValueError /\
  snd (unset demo 0 (str "SZ")) = Err ValueError /\ snd (unset demo 5 (str "SZ")) = Ok tt.
Proof. vm_compute. auto 6. Qed.

(** ** C47: saving and loading *)

(** Any game (with no empty property identifiers) serialises; loading the text, into any
    world, gives a new game of the same size with the same tree of properties, and changes
    nothing else. *)
Theorem C47_save_then_load :
  forall w i g d wrap, reachable_world w -> game_at w i = Some g ->
  data_of w (g_root g) d -> all_named d ->
  exists out, serialise_game w g wrap = Ok out /\
    forall w0 e, reachable_world w0 -> exists w1 g' d',
      load_string w0 out e false = (w1, Ok tt) /\
      game_at w1 (List.length (w_games w0)) = Some g' /\
      g_size g' = g_size g /\ data_of w1 (g_root g') d' /\ same_data_tree d d' /\
      (forall n x, node_at w0 n = Some x -> node_at w1 n = Some x) /\
      (forall j gj, game_at w0 j = Some gj -> game_at w1 j = Some gj).
Proof. exact C47_proof. Qed.
Print Assumptions C47_save_then_load.

(** Every game has such a tree of properties. *)
Theorem C47_every_game_has_data :
  forall w i g, reachable_world w -> game_at w i = Some g -> exists d, data_of w (g_root g) d.
Proof. exact data_exists. Qed.
Print Assumptions C47_every_game_has_data.

(** Loading any text: it succeeds exactly when the text holds a game whose SZ is absent or
    an integer from 1 to 26, and the new game then holds the tree the text denotes; else it
    raises ValueError and changes nothing. *)
Theorem C47_load_any_text :
  forall w s e, reachable_world w ->
  match parse_sgf_game s with
  | Err ex => load_string w s e false = (w, Err ValueError)
  | Ok t =>
      exists m sq, c_sequence t = m :: sq /\
      let size := match dget (str "SZ") m with None => Ok 19 | Some [] => Err IndexError | Some (v :: _) => py_int v end in
      match size with
      | Ok n =>
          if (1 <=? n) && (n <=? 26) then
            exists w' g nt, load_string w s e false = (w', Ok tt) /\
              game_at w' (List.length (w_games w)) = Some g /\ g_size g = n /\
              denotes t nt /\ data_of w' (g_root g) nt /\
              (forall n x, node_at w n = Some x -> node_at w' n = Some x) /\
              (forall j gj, game_at w j = Some gj -> game_at w' j = Some gj)
          else load_string w s e false = (w, Err ValueError)
      | Err _ => load_string w s e false = (w, Err ValueError)
      end
  end.
Proof. exact C47_load_proof. Qed.
Print Assumptions C47_load_any_text.

(** The hypothesis on identifiers is needed: the parser reads "c[x]" as a property with an
    empty identifier, and the text then written cannot be read. *)
Definition unnamed : world := Eval vm_compute in fst (load_string empty_world (str "(;SZ[9]c[x])") UTF_8 false).
Example C47_unnamed_game_is_lost :
  unnamed = fst (load_string empty_world (str "(;SZ[9]c[x])") UTF_8 false) /\
  exists g out, game_at unnamed 0 = Some g /\ serialise_game unnamed g None = Ok out /\
    parse_sgf_game out = Err ValueError.
Proof.
  split; [vm_compute; reflexivity|]. do 2 eexists. split; [reflexivity|]. split; [vm_compute; reflexivity|].
  vm_compute. reflexivity.
Qed.

Example C47_demo_save : exists g d out, game_at demo 1 = Some g /\ data_of demo 5 d /\ all_named d /\
  serialise_game demo g None = Ok out.
Proof.
  eexists. eexists. eexists. split; [reflexivity|]. split; [repeat (econstructor; try reflexivity)|].
  split; [|vm_compute; reflexivity].
  repeat (constructor; try (simpl; intuition discriminate)).
Qed.
