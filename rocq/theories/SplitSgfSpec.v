(** What splitting a collection means (C76), apart from the code. *)
From Verif Require Import Base Bytes PyStr SgfGrammarModel SgfGrammarSpec SgfPropsModel SgfPropsSpec SgfTreeModel SgfTreeSpec SgfCharsetModel SgfCharsetSpec.

(** In a game in the encoding [e]: the text (in UTF-8) of a raw value, and that [raw] holds
    the text [s] (its white space normalised, in UTF-8 games whatever the bytes are). *)
Definition reads (e : encoding) (raw s : bytes) : Prop := recoded e UTF_8 (text_value raw) s.
Definition holds_text (e : encoding) (raw s : bytes) : Prop :=
  exists u, text_norm s u /\ match e with UTF_8 => text_value raw = u | _ => recoded UTF_8 e u (text_value raw) end.

(** The comment of a split game: the note, after what's already there. *)
Inductive full_comment (e : encoding) (m : pmap) (note : bytes) : bytes -> Prop :=
| fc_none : lookup (str "C") m = None -> full_comment e m note note
| fc_more v old : lookup (str "C") m = Some [v] -> reads e v old ->
    full_comment e m note (old ++ [char_lf; char_lf] ++ note).

(** The text holds the game [NT m ks], but for the comment of the root. *)
Definition is_copy (e : encoding) (m : pmap) (ks : list ntree) (note text : bytes) : Prop :=
  exists t m' ks' raw full, parse_sgf_game text = Ok t /\ denotes t (NT m' ks') /\
    Forall2 same_data_tree ks ks' /\ (forall k, k <> str "C" -> lookup k m' = lookup k m) /\
    lookup (str "C") m' = Some [raw] /\ full_comment e m note full /\ holds_text e raw full.

(** A game that can be split off: the board size is a number from 1 to 26, it has no
    more than one comment, which can be decoded, and the note can be written in its encoding. *)
Definition size_ok (m : pmap) : Prop :=
  match lookup (str "SZ") m with None => True | Some vs => exists v r n, vs = v :: r /\ py_int v = Ok n /\ 1 <= n <= 26 end.
Definition comment_ok (e : encoding) (m : pmap) : Prop :=
  match lookup (str "C") m with None => True | Some vs => exists v s, vs = [v] /\ reads e v s end.
Definition note_ok (e : encoding) (note : bytes) : Prop := e = UTF_8 \/ exists s, recoded UTF_8 e note s.

(** The game [t] is the tree [NT m ks] in the encoding [e]; its properties all have names,
    and its CA property (if any) is a plain name of a known encoding. *)
Definition proper_game (reg : registry) (t : ctree) (e : encoding) (m : pmap) (ks : list ntree) : Prop :=
  denotes t (NT m ks) /\ all_named (NT m ks) /\ names_charset reg m e.

(** The name of the file for a game, and the note (games are numbered from 1). *)
Definition part_name (root ext : bytes) (number : Z) : bytes := root ++ str "_" ++ str_int number ++ ext.
Definition part_note (basename : bytes) (number : Z) : bytes :=
  str "Split from " ++ basename ++ str " (game " ++ str_int number ++ str ")".
Definition part_number (i : nat) : Z := Z.of_nat i + 1.
