(** What the SGF properties mean (C10 - C15), apart from the code. *)
From Verif Require Import Base Bytes SgfGrammarModel.

(** ** Well-formed data *)

(** An SGF PropIdent: 1 to 64 upper-case letters. *)
Definition good_ident (k : bytes) : Prop :=
  k <> [] /\ (List.length k <= 64)%nat /\ Forall (fun c => 65 <= ord c <= 90) k.

(** A raw PropValue: a sequence of ordinary characters and backslash-escaped
    characters; an ordinary character is neither backslash nor ']'. *)
Inductive good_value : bytes -> Prop :=
| gv_nil : good_value []
| gv_plain c v : c <> "\"%char -> c <> "]"%char -> good_value v -> good_value (c :: v)
| gv_escaped c v : good_value v -> good_value ("\"%char :: c :: v).

Definition good_node (m : pmap) : Prop :=
  NoDup (map fst m) /\
  Forall (fun kv => good_ident (fst kv) /\ snd kv <> [] /\ Forall good_value (snd kv)) m.

Inductive good_tree : ctree -> Prop :=
| good_tree_intro sq ch :
    sq <> [] -> Forall good_node sq -> Forall good_tree ch -> good_tree (CT sq ch).

(** ** Sameness of trees: property maps are dicts, so order does not matter *)

Definition same_node (m m' : pmap) : Prop := forall k, lookup k m = lookup k m'.

Inductive same_tree : ctree -> ctree -> Prop :=
| same_tree_intro sq sq' ch ch' :
    Forall2 same_node sq sq' -> Forall2 same_tree ch ch' -> same_tree (CT sq ch) (CT sq' ch').

(** ** Collections (C10) *)

Definition no_paren (s : bytes) : Prop := Forall (fun c => c <> "("%char) s.

(** A file containing games separated by arbitrary text without '('. *)
Inductive collection_file (wrap : option Z) : list ctree -> bytes -> Prop :=
| cf_nil junk : no_paren junk -> collection_file wrap [] junk
| cf_cons junk t out ts rest : no_paren junk -> serialise_game_tree t wrap = Ok out ->
    collection_file wrap ts rest -> collection_file wrap (t :: ts) (junk ++ out ++ rest).

(** ** What the parser can return (C11) *)

(** An identifier after the tokeniser has dropped its lower-case letters: it may be
    empty. *)
Definition parsed_ident (k : bytes) : Prop :=
  (List.length k <= 64)%nat /\ Forall (fun c => 65 <= ord c <= 90) k.

Definition parsed_node (m : pmap) : Prop :=
  NoDup (map fst m) /\
  Forall (fun kv => parsed_ident (fst kv) /\ snd kv <> [] /\ Forall good_value (snd kv)) m.

Inductive parsed_tree : ctree -> Prop :=
| parsed_tree_intro sq ch :
    sq <> [] -> Forall parsed_node sq -> Forall parsed_tree ch -> parsed_tree (CT sq ch).

(** All identifiers of a tree are non-empty. *)
Inductive named_tree : ctree -> Prop :=
| named_tree_intro sq ch :
    Forall (fun m => ~ In [] (map fst m)) sq -> Forall named_tree ch -> named_tree (CT sq ch).

(** ** Line wrapping (C12) *)

(** [groups] are the pieces of successive lines: a line is too long only if it
    holds at most one non-empty piece, and a line is only broken before a piece
    that would not have fitted. *)
Definition line_length (g : list bytes) : Z := Z.of_nat (List.length (List.concat g)).

Definition fits (width : Z) (g : list bytes) : Prop :=
  line_length g <= width \/
  (List.length (filter (fun p => negb (bytes_eqb p [])) g) <= 1)%nat.

Inductive breaks_needed (width : Z) : list (list bytes) -> Prop :=
| bn_nil : breaks_needed width []
| bn_one g : breaks_needed width [g]
| bn_cons g p g' gs :
    line_length g + Z.of_nat (List.length p) > width ->
    breaks_needed width ((p :: g') :: gs) ->
    breaks_needed width (g :: (p :: g') :: gs).

Definition wrapped (width : Z) (pieces : list bytes) (groups : list (list bytes)) : Prop :=
  List.concat groups = pieces /\ Forall (fits width) groups /\ breaks_needed width groups.

(** Property [k] with values [vs] occurs in node [m] of tree [t]. *)
Inductive node_in : ctree -> pmap -> Prop :=
| nt_here sq ch m : In m sq -> node_in (CT sq ch) m
| nt_below sq ch c m : In c ch -> node_in c m -> node_in (CT sq ch) m.

(** A piece of the serialised text: a delimiter, the final newline, or one whole
    property with all its values. *)
Inductive sgf_piece (t : ctree) : bytes -> Prop :=
| sp_delim p : p = str "(" \/ p = str ")" \/ p = str ";" \/ p = ["010"%char] -> sgf_piece t p
| sp_prop m k vs p : node_in t m -> In (k, vs) m ->
    p = k ++ flat_map (fun v => "["%char :: v ++ ["]"%char]) vs -> sgf_piece t p.

(** ** Text (C13) *)

Definition newline_to_space (c : ascii) : ascii :=
  if ascii_dec c "010"%char then " "%char else c.

(** Removing the escapes of a (normalised) raw value: an escaped newline vanishes, any
    other escaped character stands for itself, an unescaped newline becomes [lf]; a
    trailing lone backslash is dropped. *)
Inductive unescaped (lf : bytes) : bytes -> bytes -> Prop :=
| un_nil : unescaped lf [] []
| un_dangling : unescaped lf ["\"%char] []
| un_soft s t : unescaped lf s t -> unescaped lf ("\"%char :: "010"%char :: s) t
| un_escaped c s t : c <> "010"%char -> unescaped lf s t -> unescaped lf ("\"%char :: c :: s) (c :: t)
| un_newline s t : unescaped lf s t -> unescaped lf ("010"%char :: s) (lf ++ t)
| un_plain c s t : c <> "\"%char -> c <> "010"%char -> unescaped lf s t -> unescaped lf (c :: s) (c :: t).


(** The SGF Text normalisation: every line break (LF, CR, LFCR or CRLF) becomes LF,
    and TAB, FF and VT become a space. *)
Inductive text_norm : bytes -> bytes -> Prop :=
| tn_nil : text_norm [] []
| tn_lfcr s t : text_norm s t -> text_norm ("010"%char :: "013"%char :: s) ("010"%char :: t)
| tn_crlf s t : text_norm s t -> text_norm ("013"%char :: "010"%char :: s) ("010"%char :: t)
| tn_lf s t : hd_error s <> Some "013"%char -> text_norm s t ->
              text_norm ("010"%char :: s) ("010"%char :: t)
| tn_cr s t : hd_error s <> Some "010"%char -> text_norm s t ->
              text_norm ("013"%char :: s) ("010"%char :: t)
| tn_space c s t : c = "009"%char \/ c = "011"%char \/ c = "012"%char -> text_norm s t ->
              text_norm (c :: s) (" "%char :: t)
| tn_plain c s t : ~ In c ["009"%char; "010"%char; "011"%char; "012"%char; "013"%char] ->
              text_norm s t -> text_norm (c :: s) (c :: t).

(** ** Compose (C14): text in which every colon is escaped *)

Inductive no_bare_colon : bytes -> Prop :=
| nc_nil : no_bare_colon []
| nc_plain c v : c <> "\"%char -> c <> ":"%char -> no_bare_colon v -> no_bare_colon (c :: v)
| nc_escaped c v : no_bare_colon v -> no_bare_colon ("\"%char :: c :: v).

(** ** Node trees (C15) *)

(** A tree of nodes, one property map per node. *)
Inductive ntree : Type := NT (props : pmap) (kids : list ntree).

(** Every sequence of the tree is non-empty. *)
Inductive seqs_ok : ctree -> Prop :=
| so_intro sq ch : sq <> [] -> Forall seqs_ok ch -> seqs_ok (CT sq ch).

(** The node tree a coarse tree stands for: a sequence is a chain of only children,
    the variations are the children of its last node. *)
Inductive denotes : ctree -> ntree -> Prop :=
| den_last m ch ts : Forall2 denotes ch ts -> denotes (CT [m] ch) (NT m ts)
| den_more m m' sq ch t : denotes (CT (m' :: sq) ch) t -> denotes (CT (m :: m' :: sq) ch) (NT m [t]).

(** The nodes on the first-child path. *)
Fixpoint first_line (t : ntree) : list pmap :=
  match t with
  | NT m ks => m :: match ks with [] => [] | k :: _ => first_line k end
  end.

(** A coarse tree in which sequences are as long as possible: no tree has exactly
    one variation. *)
Inductive compact : ctree -> Prop :=
| compact_intro sq ch : sq <> [] -> List.length ch <> 1%nat -> Forall compact ch -> compact (CT sq ch).
