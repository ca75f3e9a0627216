(** Model of gomill/sgf_properties.py: typed SGF property values. *)
From Verif Require Import Base Bytes PyStr SgfGrammarModel BoardModel CommonModel.

(** * Character encodings *)

(** The encodings modelled.  Python knows many more; [codecs.lookup] and
    [normalise_charset_name] (sgf_properties.py:16-25) are not modelled: the presenter is
    given the encoding it resolves to. *)
Inductive encoding : Type := UTF_8 | ISO_8859_1 | ASCII.

(** Python 2's UTF-8 decoder (surrogates are accepted, over-long forms and values above
    0x10FFFF are not): a unicode string is a list of code points. *)
Definition is_cont (c : ascii) : bool := (128 <=? ord c) && (ord c <? 192).
Definition cont_bits (c : ascii) : Z := ord c - 128.

Fixpoint utf8_decode (s : bytes) : option (list Z) :=
  match s with
  | [] => Some []
  | c0 :: r0 =>
      let b0 := ord c0 in
      if b0 <? 128 then option_map (cons b0) (utf8_decode r0)
      else if b0 <? 194 then None
      else match r0 with
      | [] => None
      | c1 :: r1 =>
          if negb (is_cont c1) then None
          else if b0 <? 224 then
            option_map (cons ((b0 - 192) * 64 + cont_bits c1)) (utf8_decode r1)
          else match r1 with
          | [] => None
          | c2 :: r2 =>
              if negb (is_cont c2) then None
              else if b0 <? 240 then
                let z := (b0 - 224) * 4096 + cont_bits c1 * 64 + cont_bits c2 in
                if z <? 2048 then None else option_map (cons z) (utf8_decode r2)
              else match r2 with
              | [] => None
              | c3 :: r3 =>
                  if negb (is_cont c3) then None
                  else
                    let z := (b0 - 240) * 262144 + cont_bits c1 * 4096 + cont_bits c2 * 64
                             + cont_bits c3 in
                    if (z <? 65536) || (1114111 <? z) then None
                    else option_map (cons z) (utf8_decode r3)
              end
          end
      end
  end.

(** Python's UTF-8 encoder, one code point. *)
Definition utf8_char (z : Z) : bytes :=
  if z <? 128 then [chr z]
  else if z <? 2048 then [chr (192 + z / 64); chr (128 + z mod 64)]
  else if z <? 65536 then
    [chr (224 + z / 4096); chr (128 + z / 64 mod 64); chr (128 + z mod 64)]
  else [chr (240 + z / 262144); chr (128 + z / 4096 mod 64); chr (128 + z / 64 mod 64);
        chr (128 + z mod 64)].

Definition utf8_encode (u : list Z) : bytes := flat_map utf8_char u.

(** The largest code point of a single-byte encoding, plus one. *)
Definition enc_limit (e : encoding) : Z := match e with ASCII => 128 | _ => 256 end.

(** [s.decode(encoding)]; UnicodeDecodeError is a ValueError. *)
Definition py_decode (e : encoding) (s : bytes) : res (list Z) :=
  match e with
  | UTF_8 => match utf8_decode s with Some u => Ok u | None => Err ValueError end
  | _ => if forallb (fun c => ord c <? enc_limit e) s then Ok (map ord s) else Err ValueError
  end.

(** [u.encode(encoding)]; UnicodeEncodeError is a ValueError. *)
Definition py_encode (e : encoding) (u : list Z) : res bytes :=
  match e with
  | UTF_8 => Ok (utf8_encode u)
  | _ => if forallb (fun z => z <? enc_limit e) u then Ok (map chr u) else Err ValueError
  end.

(** sgf_properties.py:84-87 class _Context. *)
Record context : Type := mkCtx { c_size : Z; c_encoding : encoding }.

(** * Points *)

(** sgf_properties.py:28-53 [interpret_go_point]. *)
Definition interpret_go_point (s : bytes) (size : Z) : res gmove :=
  if bytes_eqb s [] || (bytes_eqb s (str "tt") && (size <=? 19)) then Ok None
  else
    match s with
    | [col_s; row_s] =>
        let col := ord col_s - 97 in
        let row := size - ord row_s + 96 in
        if negb (((0 <=? col) && (col <? size)) && ((0 <=? row) && (row <? size)))
        then Err ValueError
        else Ok (Some (row, col))
    | _ => Err ValueError                      (* unpacking *)
    end.

(** sgf_properties.py:78-79: ["abcdefghijklmnopqrstuvwxy"[i]] for [i >= 0]. *)
Definition go_letters : bytes := str "abcdefghijklmnopqrstuvwxy".

Definition go_letter (i : Z) : res ascii :=
  match nth_error go_letters (Z.to_nat i) with
  | Some c => Ok c
  | None => Err IndexError
  end.

(** sgf_properties.py:55-81 [serialise_go_point]. *)
Definition serialise_go_point (move : gmove) (size : Z) : res bytes :=
  if negb ((1 <=? size) && (size <=? 26)) then Err ValueError
  else
    match move with
    | None => Ok (if size <=? 19 then str "tt" else [])
    | Some (row, col) =>
        if negb (((0 <=? col) && (col <? size)) && ((0 <=? row) && (row <? size)))
        then Err ValueError
        else do col_s <- go_letter col;
             do row_s <- go_letter (size - row - 1);
             Ok [col_s; row_s]
    end.

(** * Values *)

(** The Python values the property types produce and accept.  (A Python set of points is
    a list without repetitions.) *)
Inductive pvalue : Type :=
| VNone                                        (* Python's None *)
| VBool (b : bool)
| VInt (n : Z)
| VReal (m : Z) (k : nat)                      (* m / 10^k, see below *)
| VColour (c : colour)
| VText (s : bytes)
| VPoint (p : point)
| VPoints (l : list point)
| VPair (a b : bytes)                          (* AP *)
| VArrows (l : list (point * point))
| VFigure (flags : Z) (name : bytes)
| VLabels (l : list (point * bytes)).

(** sgf_properties.py:106-121. *)
Definition interpret_number (s : bytes) : res Z := py_int s.
Definition serialise_number (i : Z) : bytes := str_int i.

(** Python floats are represented by decimals [m / 10^k] with [k] least.  This is a
    simplification: the model computes with exact decimals where Python rounds to binary64.
    The two agree for decimals of at most 15 significant digits (which every binary64
    conversion and [repr] preserves), so the theorems are restricted to those. *)
Fixpoint normalise_dec (m : Z) (k : nat) : Z * nat :=
  match k with
  | O => (m, O)
  | S k' => if m mod 10 =? 0 then normalise_dec (m / 10) k' else (m, k)
  end.

Fixpoint span_digits (s : bytes) : bytes * bytes :=
  match s with
  | [] => ([], [])
  | c :: r => if is_digit c then let (a, b) := span_digits r in (c :: a, b) else ([], s)
  end.

Definition parse_sign (s : bytes) : bool * bytes :=
  match s with
  | c :: r => if ceqb c "-"%char then (true, r) else if ceqb c "+"%char then (false, r) else (false, s)
  | [] => (false, [])
  end.

(** The exponent part of a float literal. *)
Definition parse_exponent (s : bytes) : option Z :=
  match s with
  | [] => Some 0
  | c :: r =>
      if ceqb c "e"%char || ceqb c "E"%char then
        let (neg, r') := parse_sign r in
        match r' with
        | [] => None
        | _ => if forallb is_digit r' then Some (if neg then - digits_val r' else digits_val r')
               else None
        end
      else None
  end.

(** [float(s)] for finite literals; "inf" and "nan" literals are refused by the callers
    with ValueError, as malformed ones are here. *)
Definition py_float (s : bytes) : res (Z * nat) :=
  let (neg, r) := parse_sign (strip s) in
  let (ip, r1) := span_digits r in
  let (fp, r2) := match r1 with
                  | c :: r' => if ceqb c "."%char then span_digits r' else ([], r1)
                  | [] => ([], [])
                  end in
  match ip ++ fp with
  | [] => Err ValueError
  | ds =>
      match parse_exponent r2 with
      | None => Err ValueError
      | Some e =>
          let m := if neg then - digits_val ds else digits_val ds in
          let e' := e - Z.of_nat (List.length fp) in
          Ok (if 0 <=? e' then (m * 10 ^ e', O) else normalise_dec m (Z.to_nat (- e')))
      end
  end.

(** sgf_properties.py:124-136 [interpret_real]; literals too large for binary64 are
    infinite. *)
Definition interpret_real (s : bytes) : res (Z * nat) :=
  do (m, k) <- py_float s;
  if (2 ^ 1024 - 2 ^ 970) * 10 ^ Z.of_nat k <=? Z.abs m then Err ValueError else Ok (m, k).

(** sgf_properties.py:138-159 [serialise_real]. *)
Definition serialise_real (m : Z) (k : nat) : bytes :=
  match k with
  | O => str_int m
  | _ =>
      if Z.abs m * 10000 <? 10 ^ Z.of_nat k then str "0"      (* repr has an exponent *)
      else (if m <? 0 then str "-" else []) ++
           str_int (Z.abs m / 10 ^ Z.of_nat k) ++ str "." ++
           zfill k (str_int (Z.abs m mod 10 ^ Z.of_nat k))
  end.

(** sgf_properties.py:162-183. *)
Definition interpret_double (s : bytes) : Z := if bytes_eqb (strip s) (str "2") then 2 else 1.
Definition serialise_double (i : Z) : bytes := if i =? 2 then str "2" else str "1".

(** sgf_properties.py:186-205. *)
Definition interpret_colour (s : bytes) : res colour :=
  let s' := map lower_char s in
  if bytes_eqb s' (str "b") then Ok Black
  else if bytes_eqb s' (str "w") then Ok White
  else Err ValueError.
Definition serialise_colour (c : colour) : bytes :=
  match c with Black => str "B" | White => str "W" end.

(** sgf_properties.py:208-216 [_transcode]. *)
Definition transcode (s : bytes) (e : encoding) : res bytes :=
  do u <- py_decode e s;
  match e with UTF_8 => Ok s | _ => py_encode UTF_8 u end.

(** sgf_properties.py:218-228, 243-253. *)
Definition interpret_simpletext (s : bytes) (x : context) : res bytes :=
  transcode (simpletext_value s) (c_encoding x).
Definition interpret_text (s : bytes) (x : context) : res bytes :=
  transcode (text_value s) (c_encoding x).

(** sgf_properties.py:230-240, 255-265: [serialise_simpletext] and [serialise_text] have
    the same body. *)
Definition serialise_text (s : bytes) (x : context) : res bytes :=
  do s' <- match c_encoding x with
           | UTF_8 => Ok s
           | e => do u <- py_decode UTF_8 s; py_encode e u
           end;
  Ok (escape_text s').
Definition serialise_simpletext := serialise_text.

(** sgf_properties.py:269-292. *)
Definition interpret_point (s : bytes) (x : context) : res point :=
  do m <- interpret_go_point s (c_size x);
  match m with None => Err ValueError | Some p => Ok p end.
Definition serialise_point (p : point) (x : context) : res bytes :=
  serialise_go_point (Some p) (c_size x).

(** [s.partition(":")]: [None] when there is no colon. *)
Fixpoint partition_colon (s : bytes) : bytes * option bytes :=
  match s with
  | [] => ([], None)
  | c :: r => if ceqb c char_colon then ([], Some r)
              else let (a, b) := partition_colon r in (c :: a, b)
  end.

(** [xrange(a, b+1)]. *)
Definition zrange_incl (a b : Z) : list Z := map (fun i => a + i) (range (b + 1 - a)).

(** sgf_properties.py:316-348 [interpret_point_list]. *)
Fixpoint point_list_loop (values : list bytes) (x : context) (result : list point)
  : res (list point) :=
  match values with
  | [] => Ok result
  | s :: rest =>
      match partition_colon s with
      | (p1, Some p2) =>
          do (top, lft) <- interpret_point p1 x;
          do (bottom, rgt) <- interpret_point p2 x;
          if negb ((bottom <=? top) && (lft <=? rgt)) then Err ValueError
          else
            point_list_loop rest x
              (fold_left (fun acc p => set_add p acc)
                 (flat_map (fun row => map (fun col => (row, col)) (zrange_incl lft rgt))
                    (zrange_incl bottom top))
                 result)
      | (p1, None) =>
          do pt <- interpret_point p1 x;
          point_list_loop rest x (set_add pt result)
      end
  end.
Definition interpret_point_list (values : list bytes) (x : context) : res (list point) :=
  point_list_loop values x [].

(** [list.sort()] on byte strings (the result of a comparison sort is determined up to
    equal elements, which are indistinguishable). *)
Fixpoint insert_bytes (s : bytes) (l : list bytes) : list bytes :=
  match l with
  | [] => [s]
  | t :: r => if bytes_ltb t s then t :: insert_bytes s r else s :: l
  end.
Definition sort_bytes (l : list bytes) : list bytes := fold_right insert_bytes [] l.

(** sgf_properties.py:350-364 [serialise_point_list]. *)
Definition serialise_point_list (points : list point) (x : context) : res (list bytes) :=
  do l <- mapm (fun p => serialise_point p x) points; Ok (sort_bytes l).

(** sgf_properties.py:367-380 [interpret_AP]. *)
Definition interpret_AP (s : bytes) (x : context) : res (bytes * bytes) :=
  let (application, version) := parse_compose s in
  let version' := match version with None => [] | Some v => v end in
  do a <- interpret_simpletext application x;
  do v <- interpret_simpletext version' x;
  Ok (a, v).

(** sgf_properties.py:382-394 [serialise_AP]. *)
Definition serialise_AP (value : bytes * bytes) (x : context) : res bytes :=
  do a <- serialise_simpletext (fst value) x;
  do v <- serialise_simpletext (snd value) x;
  Ok (compose a v).

(** sgf_properties.py:397-408 [interpret_ARLN_list].  When there is no colon the second
    part is Python's None: [interpret_go_point(None)] fails to unpack it (TypeError). *)
Definition interpret_arrow (s : bytes) (x : context) : res (point * point) :=
  let (p1, p2) := parse_compose s in
  do a <- interpret_point p1 x;
  match p2 with
  | None => Err TypeError
  | Some p2' => do b <- interpret_point p2' x; Ok (a, b)
  end.
Definition interpret_ARLN_list (values : list bytes) (x : context) : res (list (point * point)) :=
  mapm (fun s => interpret_arrow s x) values.

(** sgf_properties.py:410-418. *)
Definition serialise_arrow (v : point * point) (x : context) : res bytes :=
  do a <- serialise_point (fst v) x;
  do b <- serialise_point (snd v) x;
  Ok (a ++ [char_colon] ++ b).
Definition serialise_ARLN_list (values : list (point * point)) (x : context) : res (list bytes) :=
  mapm (fun v => serialise_arrow v x) values.

(** sgf_properties.py:421-432 [interpret_FG].  [int(flags)] is evaluated first; with no
    colon, [simpletext_value(None)] is a TypeError. *)
Definition interpret_FG (s : bytes) (x : context) : res (option (Z * bytes)) :=
  if bytes_eqb s [] then Ok None
  else
    let (flags, name) := parse_compose s in
    do n <- py_int flags;
    match name with
    | None => Err TypeError
    | Some name' => do t <- interpret_simpletext name' x; Ok (Some (n, t))
    end.

(** sgf_properties.py:434-447 [serialise_FG]. *)
Definition serialise_FG (value : option (Z * bytes)) (x : context) : res bytes :=
  match value with
  | None => Ok []
  | Some (flags, name) =>
      do t <- serialise_simpletext name x; Ok (str_int flags ++ [char_colon] ++ t)
  end.

(** sgf_properties.py:450-461 [interpret_LB_list]. *)
Definition interpret_label (s : bytes) (x : context) : res (point * bytes) :=
  let (p, label) := parse_compose s in
  do pt <- interpret_point p x;
  match label with
  | None => Err TypeError
  | Some l => do t <- interpret_simpletext l x; Ok (pt, t)
  end.
Definition interpret_LB_list (values : list bytes) (x : context) : res (list (point * bytes)) :=
  mapm (fun s => interpret_label s x) values.

(** sgf_properties.py:463-471. *)
Definition serialise_label (v : point * bytes) (x : context) : res bytes :=
  do a <- serialise_point (fst v) x;
  do t <- serialise_simpletext (snd v) x;
  Ok (a ++ [char_colon] ++ t).
Definition serialise_LB_list (values : list (point * bytes)) (x : context) : res (list bytes) :=
  mapm (fun v => serialise_label v x) values.

(** * Property types *)

(** sgf_properties.py:474-507 Property_type.  [stone_list] is the same type as [point_list]. *)
Inductive ptype : Type :=
| PT_none | PT_number | PT_real | PT_double | PT_colour | PT_simpletext | PT_text
| PT_point | PT_move | PT_point_list | PT_point_elist | PT_AP | PT_ARLN_list | PT_FG
| PT_LB_list.

Definition uses_list (t : ptype) : bool :=
  match t with
  | PT_point_list | PT_point_elist | PT_ARLN_list | PT_LB_list => true
  | _ => false
  end.

Definition allows_empty_list (t : ptype) : bool :=
  match t with PT_point_elist => true | _ => false end.

(** The interpreter of a type that doesn't use lists. *)
Definition interpret_single (t : ptype) (s : bytes) (x : context) : res pvalue :=
  match t with
  | PT_none => Ok (VBool true)
  | PT_number => do n <- interpret_number s; Ok (VInt n)
  | PT_real => do (m, k) <- interpret_real s; Ok (VReal m k)
  | PT_double => Ok (VInt (interpret_double s))
  | PT_colour => do c <- interpret_colour s; Ok (VColour c)
  | PT_simpletext => do v <- interpret_simpletext s x; Ok (VText v)
  | PT_text => do v <- interpret_text s x; Ok (VText v)
  | PT_point => do p <- interpret_point s x; Ok (VPoint p)
  | PT_move => do m <- interpret_go_point s (c_size x);
               Ok (match m with None => VNone | Some p => VPoint p end)
  | PT_AP => do (a, b) <- interpret_AP s x; Ok (VPair a b)
  | PT_FG => do v <- interpret_FG s x;
             Ok (match v with None => VNone | Some (n, t) => VFigure n t end)
  | _ => Err TypeError                         (* list types: not used *)
  end.

Definition interpret_list (t : ptype) (l : list bytes) (x : context) : res pvalue :=
  match t with
  | PT_point_list | PT_point_elist => do ps <- interpret_point_list l x; Ok (VPoints ps)
  | PT_ARLN_list => do v <- interpret_ARLN_list l x; Ok (VArrows v)
  | PT_LB_list => do v <- interpret_LB_list l x; Ok (VLabels v)
  | _ => Err TypeError                         (* single types: not used *)
  end.

(** sgf_properties.py:645-662 [interpret_as_type]. *)
Definition interpret_as_type (t : ptype) (raw_values : list bytes) (x : context) : res pvalue :=
  match raw_values with
  | [] => Err ValueError
  | v :: more =>
      if uses_list t then
        interpret_list t (match raw_values with [[]] => [] | _ => raw_values end) x
      else
        match more with
        | _ :: _ => Err ValueError
        | [] => interpret_single t v x
        end
  end.

(** The serialisers.  A value of the wrong Python type is TypeError here; the code's
    behaviour on such values depends on the type. *)
Definition serialise_single (t : ptype) (v : pvalue) (x : context) : res bytes :=
  match t, v with
  | PT_none, _ => Ok []
  | PT_number, VInt n => Ok (serialise_number n)
  | PT_real, VReal m k => Ok (serialise_real m k)
  | PT_real, VInt n => Ok (serialise_real n O)
  | PT_double, VInt n => Ok (serialise_double n)
  | PT_colour, VColour c => Ok (serialise_colour c)
  | PT_simpletext, VText s => serialise_simpletext s x
  | PT_text, VText s => serialise_text s x
  | PT_point, VNone => Err ValueError
  | PT_point, VPoint p => serialise_point p x
  | PT_move, VNone => serialise_go_point None (c_size x)
  | PT_move, VPoint p => serialise_go_point (Some p) (c_size x)
  | PT_AP, VPair a b => serialise_AP (a, b) x
  | PT_FG, VNone => serialise_FG None x
  | PT_FG, VFigure n s => serialise_FG (Some (n, s)) x
  | _, _ => Err TypeError
  end.

Definition serialise_list (t : ptype) (v : pvalue) (x : context) : res (list bytes) :=
  match t, v with
  | (PT_point_list | PT_point_elist), VPoints l => serialise_point_list l x
  | PT_ARLN_list, VArrows l => serialise_ARLN_list l x
  | PT_LB_list, VLabels l => serialise_LB_list l x
  | _, _ => Err TypeError
  end.

(** sgf_properties.py:689-704 [serialise_as_type]. *)
Definition serialise_as_type (t : ptype) (v : pvalue) (x : context) : res (list bytes) :=
  if uses_list t then
    do serialised <- serialise_list t v x;
    match serialised with
    | [] => if allows_empty_list t then Ok [[]] else Err ValueError
    | _ => Ok serialised
    end
  else do s <- serialise_single t v x; Ok [s].

(** sgf_properties.py:511-580 [_property_types_by_ident]. *)
Definition property_types : list (bytes * ptype) := map (fun kt => (str (fst kt), snd kt)) [
  ("AB", PT_point_list); ("AE", PT_point_list); ("AN", PT_simpletext); ("AP", PT_AP);
  ("AR", PT_ARLN_list); ("AW", PT_point_list); ("B", PT_move); ("BL", PT_real); ("BM", PT_double);
  ("BR", PT_simpletext); ("BT", PT_simpletext); ("C", PT_text); ("CA", PT_simpletext);
  ("CP", PT_simpletext); ("CR", PT_point_list); ("DD", PT_point_elist); ("DM", PT_double);
  ("DO", PT_none); ("DT", PT_simpletext); ("EV", PT_simpletext); ("FF", PT_number);
  ("FG", PT_FG); ("GB", PT_double); ("GC", PT_text); ("GM", PT_number);
  ("GN", PT_simpletext); ("GW", PT_double); ("HA", PT_number); ("HO", PT_double);
  ("IT", PT_none); ("KM", PT_real); ("KO", PT_none); ("LB", PT_LB_list); ("LN", PT_ARLN_list);
  ("MA", PT_point_list); ("MN", PT_number); ("N", PT_simpletext); ("OB", PT_number);
  ("ON", PT_simpletext); ("OT", PT_simpletext); ("OW", PT_number); ("PB", PT_simpletext);
  ("PC", PT_simpletext); ("PL", PT_colour); ("PM", PT_number); ("PW", PT_simpletext);
  ("RE", PT_simpletext); ("RO", PT_simpletext); ("RU", PT_simpletext); ("SL", PT_point_list);
  ("SO", PT_simpletext); ("SQ", PT_point_list); ("ST", PT_number); ("SZ", PT_number);
  ("TB", PT_point_elist); ("TE", PT_double); ("TM", PT_real); ("TR", PT_point_list); ("TW", PT_point_elist);
  ("UC", PT_double); ("US", PT_simpletext); ("V", PT_real); ("VW", PT_point_elist); ("W", PT_move);
  ("WL", PT_real); ("WR", PT_simpletext); ("WT", PT_simpletext)]%string.

(** sgf_properties.py:585-611 class Presenter. *)
Record presenter : Type := mkPres {
  pr_context : context;
  pr_types : list (bytes * ptype);
  pr_default : option ptype
}.

Definition new_presenter (size : Z) (e : encoding) : presenter :=
  mkPres (mkCtx size e) property_types (Some PT_text).

Fixpoint type_lookup (k : bytes) (l : list (bytes * ptype)) : option ptype :=
  match l with
  | [] => None
  | (k', t) :: r => if bytes_eqb k k' then Some t else type_lookup k r
  end.

(** sgf_properties.py:620-622 [register_property], 624-626 [deregister_property] (KeyError
    when absent), 628-634 [set_private_property_type]. *)
Definition register_property (k : bytes) (t : ptype) (p : presenter) : presenter :=
  mkPres (pr_context p) ((k, t) :: filter (fun kt => negb (bytes_eqb (fst kt) k)) (pr_types p))
         (pr_default p).
Definition deregister_property (k : bytes) (p : presenter) : res presenter :=
  match type_lookup k (pr_types p) with
  | None => Err KeyError
  | Some _ => Ok (mkPres (pr_context p) (filter (fun kt => negb (bytes_eqb (fst kt) k)) (pr_types p))
                         (pr_default p))
  end.
Definition set_private_property_type (t : option ptype) (p : presenter) : presenter :=
  mkPres (pr_context p) (pr_types p) t.

(** sgf_properties.py:636-643 [_get_effective_property_type]. *)
Definition effective_type (p : presenter) (k : bytes) : res ptype :=
  match type_lookup k (pr_types p) with
  | Some t => Ok t
  | None => match pr_default p with None => Err ValueError | Some t => Ok t end
  end.

(** sgf_properties.py:664-687 [interpret], 706-730 [serialise]. *)
Definition interpret (p : presenter) (k : bytes) (raw : list bytes) : res pvalue :=
  do t <- effective_type p k; interpret_as_type t raw (pr_context p).
Definition serialise (p : presenter) (k : bytes) (v : pvalue) : res (list bytes) :=
  do t <- effective_type p k; serialise_as_type t v (pr_context p).
