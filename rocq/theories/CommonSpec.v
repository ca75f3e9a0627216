(** What the vertex, handicap and diagram properties mean (C07 - C09). *)
From Verif Require Import Base Bytes BoardSpec.

(** The GTP column names: A to Z without I, either case. *)
Definition gtp_columns : bytes := str "ABCDEFGHJKLMNOPQRSTUVWXYZ".
Definition gtp_columns_lower : bytes := str "abcdefghjklmnopqrstuvwxyz".

Definition names_column (l : ascii) (col : Z) : Prop :=
  0 <= col /\
  (nth_error gtp_columns (Z.to_nat col) = Some l \/
   nth_error gtp_columns_lower (Z.to_nat col) = Some l).

(** The GTP handicap layouts, in terms of the low, middle and high lines. *)
Definition corners4 (lo hi : Z) : list point := [(lo, lo); (hi, hi); (hi, lo); (lo, hi)].
Definition sides_lr (lo mid hi : Z) : list point := [(mid, lo); (mid, hi)].
Definition sides_tb (lo mid hi : Z) : list point := [(lo, mid); (hi, mid)].
Definition centre (mid : Z) : list point := [(mid, mid)].
Definition gtp_layout (lo mid hi n : Z) : list point :=
  if n =? 2 then [(lo, lo); (hi, hi)]
  else if n =? 3 then [(lo, lo); (hi, hi); (hi, lo)]
  else if n =? 4 then corners4 lo hi
  else if n =? 5 then corners4 lo hi ++ centre mid
  else if n =? 6 then corners4 lo hi ++ sides_lr lo mid hi
  else if n =? 7 then corners4 lo hi ++ sides_lr lo mid hi ++ centre mid
  else if n =? 8 then corners4 lo hi ++ sides_lr lo mid hi ++ sides_tb lo mid hi
  else corners4 lo hi ++ sides_lr lo mid hi ++ sides_tb lo mid hi ++ centre mid.

(** Handicap stones stand on the third line on boards smaller than 13x13, otherwise on
    the fourth (counting from 1). *)
Definition gtp_handicap (n size : Z) : list point :=
  let lo := if size <? 13 then 2 else 3 in
  gtp_layout lo ((size - 1) / 2) (size - 1 - lo) n.

(** The half-turn of the board. *)
Definition half_turn (size : Z) (p : point) : point := (size - 1 - fst p, size - 1 - snd p).
