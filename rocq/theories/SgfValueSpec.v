(** The proper values of each SGF property type, and what is read back (C18). *)
From Verif Require Import Base Bytes BoardSpec SgfGrammarSpec SgfPropsSpec SgfPropsModel.

(** The first character code an encoding cannot represent. *)
Definition char_limit (e : encoding) : Z :=
  match e with UTF_8 => 1114112 | ISO_8859_1 => 256 | ASCII => 128 end.

(** Text that the encoding can represent. *)
Definition text_ok (x : context) (s : bytes) : Prop := utf8_text (char_limit (c_encoding x)) s.

(** [v] is a proper Python value for a property of type [t]. *)
Definition value_ok (x : context) (t : ptype) (v : pvalue) : Prop :=
  let size := c_size x in
  match t, v with
  | PT_none, _ => True
  | PT_number, VInt _ => True
  | PT_real, VInt n => Z.abs n < 10 ^ 15
  | PT_real, VReal m k => Z.abs m < 10 ^ 15 /\ (k = O \/ m mod 10 <> 0)
  | PT_double, VInt n => n = 1 \/ n = 2
  | PT_colour, VColour _ => True
  | PT_simpletext, VText s => text_ok x s
  | PT_text, VText s => text_ok x s
  | PT_point, VPoint p => on_board size p
  | PT_move, VNone => True
  | PT_move, VPoint p => on_board size p
  | PT_point_list, VPoints l => l <> [] /\ Forall (on_board size) l
  | PT_point_elist, VPoints l => Forall (on_board size) l
  | PT_AP, VPair a b => text_ok x a /\ text_ok x b
  | PT_ARLN_list, VArrows l => l <> [] /\ Forall (fun pq => on_board size (fst pq) /\ on_board size (snd pq)) l
  | PT_FG, VNone => True
  | PT_FG, VFigure _ s => text_ok x s
  | PT_LB_list, VLabels l => l <> [] /\ Forall (fun pl => on_board size (fst pl) /\ text_ok x (snd pl)) l
  | _, _ => False
  end.

(** [v'] is [v], up to what the type forgets: the white space of texts is normalised,
    point lists are read as sets, a value of type None reads as True, and reals ([m / 10^k],
    in lowest terms) of magnitude below 0.0001 are read as 0. *)
Definition reads_back (t : ptype) (v v' : pvalue) : Prop :=
  match t, v, v' with
  | PT_none, _, _ => v' = VBool true
  | PT_real, VInt n, _ => v' = VReal n O
  | PT_real, VReal m k, VReal m' k' =>
      (* values below 0.0001 are written as 0 *)
      if Z.abs m * 10000 <? 10 ^ Z.of_nat k then m' = 0 /\ k' = O else m' = m /\ k' = k
  | PT_simpletext, VText s, VText s' => simpletext_norm s s'
  | PT_text, VText s, VText s' => text_norm s s'
  | (PT_point_list | PT_point_elist), VPoints l, VPoints l' => same_points l l' /\ NoDup l'
  | PT_AP, VPair a b, VPair a' b' => simpletext_norm a a' /\ simpletext_norm b b'
  | PT_FG, VFigure n s, VFigure n' s' => n = n' /\ simpletext_norm s s'
  | PT_LB_list, VLabels l, VLabels l' =>
      Forall2 (fun a b => fst a = fst b /\ simpletext_norm (snd a) (snd b)) l l'
  | (PT_number | PT_double | PT_colour | PT_point | PT_move | PT_ARLN_list | PT_FG), _, _ => v' = v
  | _, _, _ => False
  end.
