(** What it means to read the moves of a game record (C21), apart from the code. *)
From Verif Require Import Base Bytes Dict BoardModel BoardSpec SgfGrammarModel CommonModel SgfPropsModel
  SgfTreeModel SgfTreeSpec SgfMovesModel.

(** The moves of a list of nodes, as [get_move] shows them. *)
Inductive moves_of (w : world) : list nat -> list (colour * gmove) -> Prop :=
| mo_nil : moves_of w [] []
| mo_skip n ns ms : get_move w n = Ok None -> moves_of w ns ms -> moves_of w (n :: ns) ms
| mo_move n ns m ms : get_move w n = Ok (Some m) -> moves_of w ns ms -> moves_of w (n :: ns) (m :: ms).

Definition no_setup (w : world) (n : nat) : Prop :=
  forall k, In k [str "AB"; str "AW"; str "AE"] -> has_property w n k = false.

Definition empty_position : position := fun _ => None.

(** The nodes after the setup: all of the main line if there is none. *)
Definition move_nodes (t : rose) (ab aw : list point) : list nat :=
  match ab ++ aw with [] => leftmost t | _ => tl (leftmost t) end.

(** The main line of a game (with tree [t]) is a legal setup in the root, followed by
    nodes with no setup and with well-formed moves [ms], the root having no move if it has
    a setup. *)
Definition readable (w : world) (g : game) (t : rose) (ab aw ae : list point) (ms : list (colour * gmove)) : Prop :=
  get_setup_stones w (g_root g) = Ok (ab, aw, ae) /\
  legal (g_size g) (setup_position empty_position ab aw ae) /\
  (ab ++ aw <> [] -> get_move w (g_root g) = Ok None) /\
  Forall (no_setup w) (move_nodes t ab aw) /\
  moves_of w (move_nodes t ab aw) ms.

(** A board that may be passed to [get_setup_and_moves]. *)
Definition usable (size : Z) (supplied : option board) : Prop :=
  match supplied with
  | None => 2 <= size
  | Some b => side b = size /\ is_empty b = true
  end.

(** The player expected to move first, and whether there is setup other than a handicap. *)
Definition expected_first (w : world) (root : nat) : colour :=
  if has_property w root (str "HA") then White else Black.
Definition other_setup (w : world) (root : nat) : Prop :=
  has_property w root (str "AW") = true \/
  (has_property w root (str "AB") = true /\ has_property w root (str "HA") = false).
