(** What a loaded game looks like when it is built at once: the links of its nodes, and the
    eager world a lazy one stands for (C68). *)
From Verif Require Import Base Bytes SgfTreeModel SgfLazyModel.

(** The parents and children of the nodes of a coarse tree whose first node has the parent
    [p], in the order of the text. *)
Definition heads (ch : list lctree) : list nat := flat_map (fun c => firstn 1 (lc_sequence c)) ch.
Fixpoint links (p : option nat) (t : lctree) : list (nat * (option nat * list nat)) :=
  match t with
  | LC sq ch =>
      (fix go (p : option nat) (sq : list nat) : list (nat * (option nat * list nat)) :=
         match sq with
         | [] => []
         | n :: sq' =>
             match sq' with
             | [] => (n, (p, heads ch)) :: flat_map (links (Some n)) ch
             | n' :: _ => (n, (p, [n'])) :: go (Some n) sq'
             end
         end) p sq
  end.

Fixpoint assoc {A} (i : nat) (l : list (nat * A)) : option A :=
  match l with [] => None | (j, x) :: r => if Nat.eqb i j then Some x else assoc i r end.

(** The links of a node as the program will find them. *)
Definition final_links (lw : lworld) (n : nat) (s : slot) : option nat * list nat :=
  let now := match s_node s with Some x => x | None => (None, []) end in
  match lgame_at lw (s_owner s) with
  | Some x => match lg_coarse x with
              | Some t => match assoc n (links None t) with Some y => y | None => now end
              | None => now
              end
  | None => now
  end.

Fixpoint imap {A B} (f : nat -> A -> B) (i : nat) (l : list A) : list B :=
  match l with [] => [] | x :: r => f i x :: imap f (S i) r end.

(** The world in which all is built. *)
Definition forced (lw : lworld) : world :=
  mkW (imap (fun n s => let y := final_links lw n s in mkT (s_owner s) (fst y) (snd y) (s_props s)) O (lw_slots lw))
      (map (fun x => mkGame (lg_root x) (lg_pres x)) (lw_games lw)).

(** What a program can reach. *)
Definition lreachable (lw : lworld) : Prop := exists l, lapplicable_all empty_lworld l /\ lw = fst (lrun empty_lworld l).

(** The game [g] was loaded, and its tree is not built yet. *)
Definition unbuilt (lw : lworld) (g : nat) : Prop := exists x t, lgame_at lw g = Some x /\ lg_coarse x = Some t.

(** [a] looks at the children of [root], the root of [g]. *)
Definition opens (g root : nat) (a : action) : Prop :=
  match a with
  | Do (NewChild n _) => n = root
  | Ask (Length n | Item n _ | Index n _ | MainSequenceBelow n) => n = root
  | Ask (MainSequence h | LastNode h | Serialise h _) => h = g
  | _ => False
  end.
