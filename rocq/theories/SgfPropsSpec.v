(** What the SGF point, point-list and typed-value properties mean (C16 - C18, C46). *)
From Verif Require Import Base Bytes BoardSpec SgfGrammarSpec.

(** ** Points *)

(** An SGF point is two letters: the column from the left and the row from the top, both
    counted from 'a'.  (Gomill's row 0 is the bottom row.) *)
Definition names_point (size : Z) (s : bytes) (p : point) : Prop :=
  exists a b, s = [a; b] /\ 0 <= fst p < size /\ 0 <= snd p < size /\
    ord a = ord "a"%char + snd p /\ ord b = ord "a"%char + (size - 1 - fst p).

(** A pass is the empty string, or "tt" on boards no larger than 19x19. *)
Definition names_pass (size : Z) (s : bytes) : Prop :=
  s = [] \/ (s = str "tt" /\ size <= 19).

(** ** Point lists *)

(** One value of a point list is a point, or a rectangle given by its upper left and
    lower right corners; [value_points size v P] says [v] is well formed and denotes the
    points in [P]. *)
Inductive value_points (size : Z) : bytes -> (point -> Prop) -> Prop :=
| vp_point v p : names_point size v p -> value_points size v (fun q => q = p)
| vp_rect v a b top left bottom right :
    v = a ++ str ":" ++ b ->
    names_point size a (top, left) -> names_point size b (bottom, right) ->
    bottom <= top -> left <= right ->
    value_points size v (fun q => bottom <= fst q <= top /\ left <= snd q <= right).

Definition same_points (l l' : list point) : Prop := forall p, In p l <-> In p l'.

(** ** Text encodings *)

(** The UTF-8 form of a code point. *)
Inductive utf8_of : Z -> bytes -> Prop :=
| u8_1 z a : 0 <= z < 128 -> ord a = z -> utf8_of z [a]
| u8_2 z a b h l : 128 <= z < 2048 -> z = h * 64 + l -> 0 <= l < 64 ->
    ord a = 192 + h -> ord b = 128 + l -> utf8_of z [a; b]
| u8_3 z a b c h m l : 2048 <= z < 65536 -> z = h * 4096 + m * 64 + l -> 0 <= m < 64 -> 0 <= l < 64 ->
    ord a = 224 + h -> ord b = 128 + m -> ord c = 128 + l -> utf8_of z [a; b; c]
| u8_4 z a b c d h k m l : 65536 <= z < 1114112 -> z = h * 262144 + k * 4096 + m * 64 + l ->
    0 <= k < 64 -> 0 <= m < 64 -> 0 <= l < 64 ->
    ord a = 240 + h -> ord b = 128 + k -> ord c = 128 + m -> ord d = 128 + l ->
    utf8_of z [a; b; c; d].

(** [s] is the UTF-8 form of the unicode string [u]. *)
Inductive utf8 : list Z -> bytes -> Prop :=
| utf8_nil : utf8 [] []
| utf8_cons z c u s : utf8_of z c -> utf8 u s -> utf8 (z :: u) (c ++ s).

(** [s] is UTF-8, and all its characters have codes below [limit]. *)
Definition utf8_text (limit : Z) (s : bytes) : Prop :=
  exists u, utf8 u s /\ Forall (fun z => z < limit) u.

(** ** What is read back from a serialised text *)

Definition simpletext_norm (s t : bytes) : Prop :=
  exists u, text_norm s u /\ t = map newline_to_space u.
