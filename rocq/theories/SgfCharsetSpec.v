(** What writing a game in another encoding means (C67), apart from the code. *)
From Verif Require Import Base Bytes SgfGrammarModel SgfGrammarSpec SgfPropsModel SgfPropsSpec
  SgfValueSpec SgfTreeModel.

(** The bytes [s] spell the unicode string [u] (a list of code points) in the encoding
    [e]: UTF-8, or one byte for each character below 256 (Latin-1) or 128 (ASCII). *)
Definition spells (e : encoding) (u : list Z) (s : bytes) : Prop :=
  match e with
  | UTF_8 => utf8 u s
  | _ => Forall2 (fun z c => ord c = z /\ z < char_limit e) u s
  end.

(** [s] is properly encoded; [s'] spells in [e'] the text [s] spells in [e]. *)
Definition proper (e : encoding) (s : bytes) : Prop := exists u, spells e u s.
Definition recoded (e e' : encoding) (s s' : bytes) : Prop :=
  exists u, spells e u s /\ spells e' u s'.

(** The value [v] occurs in the tree of property maps [d]. *)
Inductive value_in : ntree -> bytes -> Prop :=
| vi_here m ks k vs v : In (k, vs) m -> In v vs -> value_in (NT m ks) v
| vi_below m ks t v : In t ks -> value_in t v -> value_in (NT m ks) v.

(** Same shape, the same identifiers at every node, and values that spell the same text. *)
Inductive recoded_tree (e e' : encoding) : ntree -> ntree -> Prop :=
| rt_intro m m' ks ks' :
    (forall k, match lookup k m, lookup k m' with
               | None, None => True
               | Some vs, Some vs' => Forall2 (recoded e e') vs vs'
               | _, _ => False
               end) ->
    Forall2 (recoded_tree e e') ks ks' ->
    recoded_tree e e' (NT m ks) (NT m' ks').

(** A charset name written plainly: letters, digits, '-', '_', and so on; no backslash or
    control characters. *)
Definition plain_name (n : bytes) : Prop :=
  Forall (fun c => 32 <= ord c < 127 /\ c <> "\"%char /\ c <> "]"%char) n.

(** The game's root has no CA property, or a plain one that names [e]. *)
Definition names_charset (reg : bytes -> option encoding) (m : pmap) (e : encoding) : Prop :=
  match lookup (str "CA") m with
  | None => e = ISO_8859_1
  | Some vs => exists n, vs = [n] /\ plain_name n /\ reg n = Some e
  end.

(** The registry knows the normalised names. *)
Definition knows_names (reg : bytes -> option encoding) : Prop :=
  forall e, reg (encoding_name e) = Some e.

(** The name of the encoding a text is read under: the one given, or else the root's CA
    property's, or else ISO-8859-1. *)
Inductive reads_under : option bytes -> pmap -> bytes -> Prop :=
| ru_given n m : reads_under (Some n) m n
| ru_declared m n r : lookup (str "CA") m = Some (n :: r) -> reads_under None m n
| ru_default m : lookup (str "CA") m = None -> reads_under None m (str "ISO-8859-1").

Definition has_nul (n : bytes) : Prop := exists c, In c n /\ ord c = 0.
