(** Property theorems for the lazy building of loaded games (C68). *)
From Verif Require Import Base Bytes PyStr Dict SgfGrammarModel SgfTreeConvModel CommonModel SgfPropsModel SgfTreeModel SgfTreeSpec
  SgfLazyModel SgfLazySpec SgfLazyRunProofs.

(** Whatever a program does with games and nodes, loaded or new, and in whatever order, all
    it is told is what it would be told if [Sgf_game.from_string] built the whole tree at
    once; and the worlds it goes through are the reachable ones of [SgfTreeModel], so C19,
    C20, C21, C47 and C67 hold of them. *)
Theorem C68_lazy_is_unobservable :
  forall l, lapplicable_all empty_lworld l ->
  snd (lrun empty_lworld l) = snd (erun empty_world l) /\
  reachable_world (fst (erun empty_world l)).
Proof. intros l A. destruct (C68_run_proof l A) as (H & _ & R). auto. Qed.
Print Assumptions C68_lazy_is_unobservable.

(** The properties of every node are what they are in the world that is built at once,
    whether its Tree_node has been made or not; and so are the parent and the children of
    every node of every game whose tree is built. *)
Theorem C68_same_nodes :
  forall l n s, lapplicable_all empty_lworld l -> slot_at (fst (lrun empty_lworld l)) n = Some s ->
  exists x, node_at (fst (erun empty_world l)) n = Some x /\ t_owner x = s_owner s /\ t_props x = s_props s /\
    (~ unbuilt (fst (lrun empty_lworld l)) (s_owner s) -> s_node s = Some (t_parent x, t_kids x)).
Proof. exact C68_nodes_proof. Qed.
Print Assumptions C68_same_nodes.

(** A loaded game is built by the first action that looks at the children of its root, and
    by nothing else. *)
Theorem C68_when_built :
  forall lw a g x, lreachable lw -> lapplicable lw a -> lgame_at lw g = Some x -> unbuilt lw g ->
  (unbuilt (fst (lstep lw a)) g <-> ~ opens g (lg_root x) a).
Proof. exact C68_built_proof. Qed.
Print Assumptions C68_when_built.

(** [main_sequence_iter], created after the actions [l1] and first advanced after [l2] more:
    it yields the main line as it was when it was created, unless the game was built
    between: then it raises AttributeError. *)
Theorem C68_main_sequence_iter :
  forall l1 l2 g, lapplicable_all empty_lworld l1 -> lapplicable_all (fst (lrun empty_lworld l1)) l2 ->
  let lw1 := fst (lrun empty_lworld l1) in
  let lw2 := fst (lrun lw1 l2) in
  (exists x, lgame_at lw1 g = Some x) ->
  (unbuilt lw1 g /\ ~ unbuilt lw2 g -> yields lw2 (main_sequence_iter lw1 g) = Err AttributeError) /\
  (~ (unbuilt lw1 g /\ ~ unbuilt lw2 g) ->
     ANodes (yields lw2 (main_sequence_iter lw1 g)) = ask (fst (erun empty_world l1)) (MainSequence g)).
Proof. exact C68_iter_proof. Qed.
Print Assumptions C68_main_sequence_iter.

(** ** Examples *)

Definition text : bytes := str "(;SZ[9];B[aa](;W[bb];B[cc])(;W[dd]))".
Definition before : list action := [ Do (LoadString text UTF_8 false); Ask (Get 0 (str "SZ")); Ask (MainIter 0); Do (AddComment 2 (str "hello")); Do (Delete 0) ].
Definition full : list action := before ++ [ Ask (Length 0); Ask (Item 0 0); Ask (Length 1); Ask (Item 1 (-1)); Do (NewChild 4 None); Ask (Parent 4);
    Ask (GetRawList 2 (str "C")); Do (Reparent 4 0 (Some 0)); Ask (MainSequence 0); Ask (Serialise 0 None) ].

(** Checking [lapplicable] by computation. *)
Definition lapplicableb (lw : lworld) (a : action) : bool :=
  forallb (fun n => match slot_at lw n with
                    | Some s => on_properties a || match s_node s with Some _ => true | None => false end
                    | None => false
                    end) (match a with Do o => op_nodes o | Ask q => query_nodes q end) &&
  forallb (fun g => match lgame_at lw g with Some _ => true | None => false end) (match a with Do o => op_games o | Ask q => query_games q end).
Fixpoint lapplicable_allb (lw : lworld) (l : list action) : bool :=
  match l with [] => true | a :: r => lapplicableb lw a && lapplicable_allb (fst (lstep lw a)) r end.
Lemma lapplicableb_ok lw a : lapplicableb lw a = true -> lapplicable lw a.
Proof.
  unfold lapplicableb, lapplicable. intros H. apply andb_prop in H. destruct H as [A B]. rewrite forallb_forall in A, B. split; apply Forall_forall.
  - intros n In. specialize (A n In). destruct (slot_at lw n) as [s|]; [|discriminate]. exists s. split; auto.
    destruct (on_properties a); auto. right. destruct (s_node s); [discriminate|cbn in A; discriminate].
  - intros g In. specialize (B g In). destruct (lgame_at lw g) as [x|]; [eauto|discriminate].
Qed.
Lemma lapplicable_allb_ok l : forall lw, lapplicable_allb lw l = true -> lapplicable_all lw l.
Proof.
  induction l as [|a l IH]; intros lw H; cbn [lapplicable_all]; [exact I|]. cbn [lapplicable_allb] in H. apply andb_prop in H. destruct H as [A B].
  split; [apply lapplicableb_ok; exact A|apply IH; exact B].
Qed.
Example C68_full_applicable : lapplicable_all empty_lworld full.
Proof. apply lapplicable_allb_ok. vm_compute. reflexivity. Qed.
Example C68_full_answers : skipn 5 (snd (lrun empty_lworld full)) =
  [ Answered (ANum (Ok 1)); Answered (ANode (Ok (Some 1%nat))); Answered (ANum (Ok 2)); Answered (ANode (Ok (Some 4%nat)));
    Done (Ok tt); Answered (ANode (Ok (Some 1%nat))); Answered (ARaw (Ok [str "hello"])); Done (Ok tt);
    Answered (ANodes (Ok [0; 4; 5]%nat));
    Answered (AText (Ok (str "(;SZ[9](;W[dd];)(;B[aa];C[hello]W[bb];B[cc]))" ++ [char_lf]))) ].
Proof. vm_compute. reflexivity. Qed.

(** Before the root's children are looked at the game has one Tree_node; the other nodes'
    properties can be read and set through [main_sequence_iter].  A tree operation on such a
    node is not applicable. *)
Example C68_one_node : unbuilt (fst (lrun empty_lworld before)) 0 /\
  map (fun s => match s_node s with Some _ => true | None => false end) (lw_slots (fst (lrun empty_lworld before))) = [true; false; false; false; false] /\
  nth 2 (snd (lrun empty_lworld before)) (Done (Ok tt)) = Answered (ANodes (Ok [0; 1; 2; 3]%nat)).
Proof. split; [do 2 eexists; split; [vm_compute; reflexivity|reflexivity]|]. split; vm_compute; reflexivity. Qed.
Example C68_not_yet : ~ lapplicable (fst (lrun empty_lworld before)) (Ask (Length 1)).
Proof. intros [A _]. inversion A as [|? ? (s & E & [H|H]) _]; [discriminate|]. vm_compute in E. injection E as <-. apply H. reflexivity. Qed.

(** The iterator is a generator: an access that builds the game before it is first advanced
    makes it fail, although the same calls in another order succeed. *)
Example C68_late_iterator :
  let lw1 := fst (lrun empty_lworld before) in
  let it := main_sequence_iter lw1 0 in
  yields lw1 it = Ok [0; 1; 2; 3]%nat /\
  yields (fst (lrun lw1 [Ask (Length 0)])) it = Err AttributeError /\
  yields (fst (lrun lw1 [Ask (Length 0)])) (main_sequence_iter (fst (lrun lw1 [Ask (Length 0)])) 0) = Ok [0; 1; 2; 3]%nat.
Proof. vm_compute. auto. Qed.
