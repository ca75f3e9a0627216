(** What a game record should say (C57), apart from the code that writes it. *)
From Verif Require Import Base Bytes PyStr Dict BoardModel BoardSpec SgfGrammarModel SgfGrammarSpec CommonModel
  GameplayModel SgfPropsModel SgfPropsSpec SgfValueSpec SgfTreeModel SgfTreeSpec.

(** ** Documents: what is to be shown *)

(** A comment: a text; a comment with a text added after it; or one with a text put before it (with
    an empty line between the two).  What is there already has been through a file, so its white
    space is normalised first (see [text_norm]). *)
Inductive remark : Type :=
| Said (s : bytes)
| SaidAfter (r : remark) (s : bytes)
| SaidBefore (s : bytes) (r : remark).

Inductive remark_text : remark -> bytes -> Prop :=
| rt_said s t : text_norm s t -> remark_text (Said s) t
| rt_after r u s t : remark_text r u -> text_norm (u ++ [char_lf; char_lf] ++ s) t -> remark_text (SaidAfter r s) t
| rt_before s r u t : remark_text r u -> text_norm (s ++ [char_lf; char_lf] ++ u) t -> remark_text (SaidBefore s r) t.

(** A node: properties, with their types and values (the first entry for a property is the one
    that counts), and perhaps a comment. *)
Record content : Type := mkContent {
  ct_props : list (bytes * (ptype * pvalue));
  ct_remark : option remark
}.

(** A game without variations: its root, and the other nodes. *)
Definition document : Type := (content * list content)%type.

Definition put (k : bytes) (t : ptype) (v : pvalue) (c : content) : content :=
  mkContent ((k, (t, v)) :: ct_props c) (ct_remark c).
Definition put_if (k : bytes) (t : ptype) (o : option pvalue) (c : content) : content :=
  match o with Some v => put k t v c | None => c end.
Definition say (s : bytes) (c : content) : content :=
  mkContent (ct_props c) (Some (match ct_remark c with None => Said s | Some r => SaidAfter r s end)).
Definition say_first (s : bytes) (c : content) : content :=
  mkContent (ct_props c) (Some (match ct_remark c with None => Said s | Some r => SaidBefore s r end)).

(** A change of the last node (which may be the root). *)
Definition on_end (f : content -> content) (d : document) : document :=
  match rev (snd d) with
  | [] => (f (fst d), [])
  | last :: before => (fst d, rev (f last :: before))
  end.
Definition on_root (f : content -> content) (d : document) : document := (f (fst d), snd d).

(** ** Showing them *)

(** Reading the property gives the value, up to the white space of texts and so on (see
    [reads_back]). *)
Definition value_is (w : world) (n : nat) (k : bytes) (t : ptype) (v : pvalue) : Prop :=
  exists v', get_prop w n k = Ok v' /\ reads_back t v v'.

(** The node has the properties of the content, and no others. *)
Definition node_shows (w : world) (c : content) (n : nat) : Prop :=
  (forall k, k <> str "C" ->
     match dget k (ct_props c) with
     | Some (t, v) => value_is w n k t v
     | None => has_property w n k = false
     end) /\
  match ct_remark c with
  | None => has_property w n (str "C") = false
  | Some r => exists t, get_prop w n (str "C") = Ok (VText t) /\ remark_text r t
  end.

(** The tree of a game without variations. *)
Fixpoint line (n : nat) (rest : list nat) : rose :=
  match rest with [] => R n [] | m :: r => R n [line m r] end.

(** Game [i] of the world is the document; [nodes] are its nodes after the root. *)
Definition displays (d : document) (w : world) (i : nat) (g : game) (nodes : list nat) : Prop :=
  game_at w i = Some g /\ tree_of w (g_root g) (line (g_root g) nodes) /\
  node_shows w (fst d) (g_root g) /\ Forall2 (node_shows w) (snd d) nodes.

(** Nothing that was there before has changed. *)
Definition undisturbed (w w' : world) : Prop :=
  (forall n x, node_at w n = Some x -> node_at w' n = Some x) /\
  (forall j g, game_at w j = Some g -> game_at w' j = Some g).

(** ** What can be recorded *)

Definition is_utf8 (s : bytes) : Prop := utf8_text 1114112 s.

(** A komi as people write it: in lowest terms and with at most 15 digits. *)
Definition komi_ok (k : num) : Prop := Z.abs (fst k) < 10 ^ 15 /\ (snd k = O \/ fst k mod 10 <> 0).

Definition stones_list (o : option (list point)) : list point := match o with Some l => l | None => [] end.

(** The point of a move is on the board. *)
Definition move_on_board (s : Z) (m : gmove) : Prop := forall p, m = Some p -> on_board s p.

Record recordable (r : runner) : Prop := mkRecordable {
  rc_size : 1 <= ru_size r <= 25;
  rc_komi : komi_ok (ru_komi r);
  rc_result : forall x, ru_result r = Some x -> is_utf8 (r_sgf x);
  rc_stones : Forall (on_board (ru_size r)) (stones_list (ru_stones r));
  rc_moves : Forall (fun x => move_on_board (ru_size r) (snd (fst x))) (ru_moves r);
  rc_comments : forall m c, In (m, Some c) (ru_moves r) -> is_utf8 c;
  rc_final : forall c m, ru_final r = Some (c, m) -> is_utf8 m
}.

(** ** The record of a game *)

Definition the_root (version today : bytes) (r : runner) : content :=
  put_if (str "AB") PT_point_list (match stones_list (ru_stones r) with [] => None | l => Some (VPoints l) end) (
  put (str "DT") PT_simpletext (VText today) (
  put_if (str "HA") PT_number (option_map VInt (ru_handicap r)) (
  put_if (str "RE") PT_simpletext (option_map (fun x => VText (r_sgf x)) (ru_result r)) (
  put (str "AP") PT_AP (VPair (str "gomill") version) (
  put (str "KM") PT_real (VReal (fst (ru_komi r)) (snd (ru_komi r))) (
  put (str "CA") PT_simpletext (VText (str "UTF-8")) (
  put (str "SZ") PT_number (VInt (ru_size r)) (
  put (str "GM") PT_number (VInt 1) (
  put (str "FF") PT_number (VInt 4) (mkContent [] None)))))))))).

Definition the_move (x : colour * gmove * option bytes) : content :=
  match x with (c, m, comment) =>
    mkContent [(match c with Black => str "B" | White => str "W" end,
                (PT_move, match m with None => VNone | Some p => VPoint p end))]
              (option_map Said comment)
  end.

(** The final message, as the record shows it. *)
Definition last_words (c : colour) (m : bytes) : bytes :=
  str "final message from " ++ (match c with Black => str "b" | White => str "w" end) ++ str ": <<<" ++
  [char_lf] ++ m ++ [char_lf] ++ str ">>>".

Definition the_game (version today : bytes) (r : runner) : document :=
  let d := (the_root version today r, map the_move (ru_moves r)) in
  match ru_final r with
  | None => d
  | Some (c, m) => on_end (say (last_words c m)) d
  end.

(** ** Reading a document as a game *)

Definition has_no (l : list bytes) (c : content) : Prop := forall k, In k l -> dget k (ct_props c) = None.

(** The document is a game that starts with black [stones] and goes on with the [moves]. *)
Definition plays (d : document) (stones : list point) (moves : list (colour * gmove)) : Prop :=
  dget (str "AB") (ct_props (fst d)) =
    (match stones with [] => None | _ => Some (PT_point_list, VPoints stones) end) /\
  has_no [str "AW"; str "AE"; str "B"; str "W"] (fst d) /\
  Forall2 (fun c cm =>
    has_no [str "AB"; str "AW"; str "AE"; (match fst cm with Black => str "W" | White => str "B" end)] c /\
    dget (match fst cm with Black => str "B" | White => str "W" end) (ct_props c) =
      Some (PT_move, match snd cm with None => VNone | Some p => VPoint p end)) (snd d) moves.
