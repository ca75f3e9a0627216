(** Model of gomill/settings.py. *)
From Coq Require Import QArith.
From Coq Require Import Floats.SpecFloat.
From Verif Require Import Base Bytes PyStr Dict SgfPropsModel.
Open Scope Z_scope.

(** * Python values *)

(** Finite floats are the rational numbers they stand for. *)
Inductive pyfloat : Type := FNum (q : Q) | FInf (negative : bool) | FNan.

(** The values that are considered.  [VInt]: an 'int', [VLong]: a 'long'.  [VUni]: a unicode
    string, as a list of code points.  [VList]: a list, tuple, or any other iterable object.
    [VFun]: a function or other callable.  [VObj]: any other object.  [VProxy]: an instance of
    a Config_proxy class; [made] is what its 'underlying' class gives, or the text of the
    exception it raises.  [VConfig]: an instance of a Quiet_config class. *)
Inductive pyval : Type :=
| VNone
| VBool (b : bool)
| VInt (z : Z)
| VLong (z : Z)
| VFloat (f : pyfloat)
| VStr (s : bytes)
| VUni (u : list Z)
| VList (l : list pyval)
| VDict (items : list (pyval * pyval))
| VFun (n : nat)
| VObj (n : nat)
| VProxy (cls : bytes) (made : pyval + bytes)
| VConfig (cls : bytes) (args : list pyval) (kwargs : list (bytes * pyval)).

(** Exceptions, with their texts. *)
Inductive serr : Type := SValue (m : bytes) | SControl (m : bytes) | SKey | SOther (e : exn).
Inductive sres (A : Type) : Type := Good (a : A) | Bad (e : serr).
Arguments Good {A} a.
Arguments Bad {A} e.
Definition sbind {A B} (m : sres A) (f : A -> sres B) : sres B :=
  match m with Good a => f a | Bad e => Bad e end.
Notation "'try' x <- m ; k" := (sbind m (fun x => k))
  (at level 200, x pattern, m at level 100, k at level 200, right associativity).

(** [except ValueError, e: raise ValueError(prefix + str(e))]. *)
Definition prefix_value {A} (prefix : bytes) (m : sres A) : sres A :=
  match m with Bad (SValue t) => Bad (SValue (prefix ++ t)) | _ => m end.

(** [s.encode("ascii")]. *)
Definition is_ascii_char (z : Z) : bool := (0 <=? z) && (z <? 128).
Definition encode_ascii (u : list Z) : option bytes :=
  if forallb is_ascii_char u then Some (map chr u) else None.

(** [float(i)]: the nearest binary64 number; OverflowError if it's too large. *)
Definition pow2 (e : Z) : Q := if 0 <=? e then inject_Z (2 ^ e) else (1 # Z.to_pos (2 ^ (- e))).
Definition float_of_int (z : Z) : option pyfloat :=
  match binary_normalize 53 1024 z 0 false with
  | S754_zero _ => Some (FNum 0)
  | S754_finite negative m e => Some (FNum ((if negative then inject_Z (Zneg m) else inject_Z (Zpos m)) * pow2 e))
  | S754_infinity _ => None
  | S754_nan => Some FNan
  end.

(** [a == b], for hashable values.  Strings and unicode strings can be equal. *)
Definition number_of (v : pyval) : option pyfloat :=
  match v with
  | VBool b => Some (FNum (if b then 1 else 0))
  | VInt z | VLong z => Some (FNum (inject_Z z))
  | VFloat f => Some f
  | _ => None
  end.
Definition float_eqb (a b : pyfloat) : bool :=
  match a, b with
  | FNum p, FNum q => Qeq_bool p q
  | FInf m, FInf n => Bool.eqb m n
  | _, _ => false
  end.
Fixpoint codes_eqb (a b : list Z) : bool :=
  match a, b with
  | [], [] => true
  | x :: a', y :: b' => (x =? y) && codes_eqb a' b'
  | _, _ => false
  end.
Definition str_uni_eqb (s : bytes) (u : list Z) : bool :=
  match encode_ascii u with Some t => bytes_eqb s t | None => false end.
Definition py_eqb (a b : pyval) : bool :=
  match a, b with
  | VNone, VNone => true
  | VStr s, VStr t => bytes_eqb s t
  | VUni u, VUni v => codes_eqb u v
  | VStr s, VUni u | VUni u, VStr s => str_uni_eqb s u
  | VFun m, VFun n | VObj m, VObj n => Nat.eqb m n
  | _, _ => match number_of a, number_of b with Some p, Some q => float_eqb p q | _, _ => false end
  end.
(** (Tuples can be hashed in Python; they aren't told apart from lists here.) *)
Definition hashable (v : pyval) : bool :=
  match v with VList _ | VDict _ => false | _ => true end.

(** * Interpreters *)
Definition interpreter : Type := pyval -> sres pyval.
Definition bad {A} (s : string) : sres A := Bad (SValue (str s)).

(** :20-21. *)
Definition interpret_any : interpreter := fun v => Good v.

(** :23-26. *)
Definition interpret_bool : interpreter := fun v =>
  match v with VBool _ => Good v | _ => bad "invalid True/False value" end.

(** [isinstance(i, int) and not isinstance(i, long)]: True and False are ints as well. *)
Definition int_of (v : pyval) : option Z :=
  match v with VInt z => Some z | VBool b => Some (if b then 1 else 0) | _ => None end.
(** :28-31. *)
Definition interpret_int : interpreter := fun v =>
  match int_of v with Some _ => Good v | None => bad "invalid integer" end.
(** :33-38. *)
Definition interpret_positive_int : interpreter := fun v =>
  match int_of v with
  | Some z => if z <=? 0 then bad "must be positive integer" else Good v
  | None => bad "invalid integer"
  end.

(** :40-45. *)
Definition interpret_float : interpreter := fun v =>
  match v with
  | VFloat _ => Good v
  | VBool b => Good (VFloat (FNum (if b then 1 else 0)))
  | VInt z | VLong z =>
      match float_of_int z with Some f => Good (VFloat f) | None => Bad (SOther OverflowError) end
  | _ => bad "invalid float"
  end.

Definition is_nul (c : ascii) : bool := ord c =? 0.
(** :47-59. *)
Definition interpret_8bit_string : interpreter := fun v =>
  match v with
  | VStr s => if existsb is_nul s then bad "contains NUL" else Good v
  | VUni u =>
      match encode_ascii u with
      | None => bad "non-ascii character in unicode string"
      | Some s => if existsb (Z.eqb 0) u then bad "contains NUL" else Good (VStr s)
      end
  | _ => bad "not a string"
  end.

(** :61-72. *)
Definition interpret_as_utf8 : interpreter := fun v =>
  match v with
  | VStr s => match utf8_decode s with None => bad "not a valid utf-8 string" | Some _ => Good v end
  | VUni u => Good (VStr (utf8_encode u))
  | VNone => Good (VStr [])
  | _ => bad "invalid string"
  end.
(** :74-75. *)
Definition interpret_as_utf8_stripped : interpreter := fun v =>
  try r <- interpret_as_utf8 v; match r with VStr s => Good (VStr (strip s)) | _ => Good r end.

(** :78-79. *)
Definition is_control (c : ascii) : bool := (ord c <=? 31) || ((127 <=? ord c) && (ord c <=? 159)).
Definition clean_string (s : bytes) : bytes := map (fun c => if is_control c then "?"%char else c) s.

(** :83 [_identifier_re]; the class contains the range from '+' to '.'. *)
Definition identifier_char (c : ascii) : bool :=
  existsb (ceqb c) (str "-!$%&*:;<=>?^_~") || ((ord "+" <=? ord c) && (ord c <=? ord "."))
  || is_letter c || is_digit c.
(** :84-98. *)
Definition identifier_text (s : bytes) : sres pyval :=
  match s with
  | [] => bad "empty string"
  | _ => if forallb identifier_char s then Good (VStr s)
         else Bad (SValue (str "contains forbidden character: " ++ clean_string s))
  end.
Definition interpret_identifier : interpreter := fun v =>
  match v with
  | VUni u =>
      match encode_ascii u with
      | None => Bad (SValue (str "contains forbidden character: " ++
                  clean_string (map (fun z => if is_ascii_char z then chr z else "?"%char) u)))
      | Some s => identifier_text s
      end
  | VStr s => identifier_text s
  | _ => bad "not a string"
  end.

(** [u.lower()]: of the characters outside ASCII, U+0130 and U+212A become 'i' and 'k'; what
    becomes of the others doesn't matter. *)
Definition uni_lower (z : Z) : Z :=
  if (65 <=? z) && (z <=? 90) then z + 32 else if z =? 304 then 105 else if z =? 8490 then 107 else z.
Definition lowered (v : pyval) : option bytes :=
  match v with
  | VStr s => Some (map lower_char s)
  | VUni u => encode_ascii (map uni_lower u)
  | _ => None
  end.
(** :100-113. *)
Definition interpret_colour : interpreter := fun v =>
  match lowered v with
  | Some s =>
      if bytes_eqb s (str "b") || bytes_eqb s (str "black") then Good (VStr (str "b"))
      else if bytes_eqb s (str "w") || bytes_eqb s (str "white") then Good (VStr (str "w"))
      else bad "invalid colour"
  | None => bad "invalid colour"
  end.

(** :115-120; the values are strings here. *)
Definition is_one_of (values : list bytes) (v : pyval) : bool := existsb (fun s => py_eqb v (VStr s)) values.
Definition interpret_enum (values : list bytes) : interpreter := fun v =>
  if is_one_of values v then Good v else bad "unknown value".

(** :122-125. *)
Definition interpret_callable : interpreter := fun v =>
  match v with VFun _ => Good v | _ => bad "invalid callable" end.

(** [list(v)]. *)
Definition list_of (v : pyval) : option (list pyval) :=
  match v with
  | VList l => Some l
  | VDict items => Some (map fst items)
  | VStr s => Some (map (fun c => VStr [c]) s)
  | VUni u => Some (map (fun z => VUni [z]) u)
  | _ => None
  end.
(** :153-163. *)
Definition interpret_sequence : interpreter := fun v =>
  match list_of v with Some l => Good (VList l) | None => bad "not a sequence" end.

(** :173-179 the loop of [interpret_sequence_of], from item [i] on. *)
Fixpoint items_from (item : interpreter) (i : nat) (l : list pyval) : sres (list pyval) :=
  match l with
  | [] => Good []
  | v :: rest =>
      try x <- prefix_value (str "item " ++ str_int (Z.of_nat i) ++ str ": ") (item v);
      try r <- items_from item (S i) rest;
      Good (x :: r)
  end.
(** :165-180. *)
Definition interpret_sequence_of (item : interpreter) : interpreter := fun v =>
  try s <- interpret_sequence v;
  match s with VList l => try r <- items_from item 0 l; Good (VList r) | _ => Good s end.

(** :182-198; [cls], [name]: the class, and its name in messages. *)
Definition interpret_quiet_config (cls name : bytes) (allow_simple_values : bool) : interpreter := fun v =>
  match v with
  | VConfig c _ _ =>
      if bytes_eqb c cls then Good v
      else if allow_simple_values then Good (VConfig cls [v] []) else Bad (SValue (str "not a " ++ name))
  | _ => if allow_simple_values then Good (VConfig cls [v] []) else Bad (SValue (str "not a " ++ name))
  end.
Definition interpret_sequence_of_quiet_configs (cls name : bytes) (allow_simple_values : bool) : interpreter :=
  interpret_sequence_of (interpret_quiet_config cls name allow_simple_values).

(** [d[k] = v]. *)
Fixpoint vset (k v : pyval) (d : list (pyval * pyval)) : list (pyval * pyval) :=
  match d with
  | [] => [(k, v)]
  | (k', v') :: rest => if py_eqb k k' then (k', v) :: rest else (k', v') :: vset k v rest
  end.
(** [dict(v)], as a list of items in the order they were given (Python doesn't specify the
    order; it only matters for which error is reported). *)
Fixpoint dict_of_pairs (l : list pyval) (acc : list (pyval * pyval)) : option (list (pyval * pyval)) :=
  match l with
  | [] => Some acc
  | p :: rest =>
      match list_of p with
      | Some [k; v] => if hashable k then dict_of_pairs rest (vset k v acc) else None
      | _ => None
      end
  end.
Definition dict_of (v : pyval) : option (list (pyval * pyval)) :=
  match v with
  | VDict items => Some items
  | _ => match list_of v with Some l => dict_of_pairs l [] | None => None end
  end.
(** :199-211 [interpret_map]. *)
Definition interpret_map (v : pyval) : sres (list (pyval * pyval)) :=
  match dict_of v with Some items => Good items | None => bad "not a map" end.

(** :214-237 [interpret_map_of].  The keys must be interpreted as strings.  (Equal keys have
    equal interpretations, so sorting the pairs is sorting the keys.) *)
Fixpoint map_items (key value : interpreter) (l : list (pyval * pyval)) : sres (list (bytes * pyval)) :=
  match l with
  | [] => Good []
  | (k, v) :: rest =>
      try k' <- prefix_value (str "bad key: ") (key k);
      match k' with
      | VStr s =>
          try v' <- prefix_value (str "bad value for '" ++ s ++ str "': ") (value v);
          try r <- map_items key value rest;
          Good ((s, v') :: r)
      | _ => Bad (SOther TypeError)
      end
  end.
Fixpoint insert_item {A} (x : bytes * A) (l : list (bytes * A)) : list (bytes * A) :=
  match l with
  | [] => [x]
  | y :: r => if bytes_ltb (fst y) (fst x) then y :: insert_item x r else x :: y :: r
  end.
Definition sort_items {A} (l : list (bytes * A)) : list (bytes * A) := fold_right insert_item [] l.
Definition interpret_map_items (key value : interpreter) (v : pyval) : sres (list (bytes * pyval)) :=
  try items <- interpret_map v; try r <- map_items key value items; Good (sort_items r).
Definition interpret_map_of (key value : interpreter) : interpreter := fun v =>
  try r <- interpret_map_items key value v; Good (VList (map (fun p => VList [VStr (fst p); snd p]) r)).

(** :239-245. *)
Definition allow_none (f : interpreter) : interpreter := fun v =>
  match v with VNone => Good VNone | _ => f v end.

(** :127-150 [interpret_shlex_sequence]; [shlex]: shlex.split, which can raise ValueError with
    a text. *)
Section Shlex.
Variable shlex : bytes -> list bytes + bytes.
Fixpoint strings_of (l : list pyval) : sres (list pyval) :=
  match l with
  | [] => Good []
  | v :: rest => try s <- interpret_8bit_string v; try r <- strings_of rest; Good (s :: r)
  end.
Definition interpret_shlex_sequence : interpreter := fun v =>
  try result <-
    match v with
    | VStr _ | VUni _ =>
        try s <- interpret_8bit_string v;
        match s with
        | VStr t => match shlex t with inl l => Good (map VStr l) | inr m => Bad (SValue m) end
        | _ => Bad (SOther TypeError)
        end
    | _ =>
        match list_of v with
        | None => bad "not a string or a sequence"
        | Some l => prefix_value (str "element ") (strings_of l)
        end
    end;
  match result with [] => bad "empty" | _ => Good (VList result) end.
End Shlex.

(** * Settings *)

(** :249-270 [Setting]; the default value, or the defaultmaker's. *)
Record setting : Type := mkSetting {
  st_name : bytes;
  st_interpreter : interpreter;
  st_default : option pyval
}.

(** :267-277 [get_default]. *)
Definition get_default (s : setting) : sres pyval :=
  match st_default s with Some v => Good v | None => Bad SKey end.

Definition quoted (name : bytes) : bytes := str "'" ++ name ++ str "': ".

(** :279-290 [interpret]. *)
Definition setting_interpret (s : setting) (v : pyval) : sres pyval :=
  prefix_value (quoted (st_name s)) (st_interpreter s v).

(** :357-362 [Config_proxy.resolve]. *)
Definition resolve_proxy (cls : bytes) (made : pyval + bytes) : sres pyval :=
  match made with
  | inl v => Good v
  | inr m => Bad (SValue (str "invalid parameters for " ++ cls ++ str ":" ++ [char_lf] ++ m))
  end.

(** :315-335 the value of one setting; [config]: a dict with strings as keys. *)
Definition setting_value (s : setting) (config : dict pyval) : sres pyval :=
  match dget (st_name s) config with
  | None => Bad SKey
  | Some v =>
      try v' <- match v with
                | VProxy cls made => prefix_value (quoted (st_name s)) (resolve_proxy cls made)
                | _ => Good v
                end;
      setting_interpret s v'
  end.

(** :292-336 [load_settings].  A KeyError, wherever it comes from, means that the value is
    missing. *)
Fixpoint load_settings (settings : list setting) (config : dict pyval) (apply_defaults allow_missing : bool)
  : sres (dict pyval) :=
  match settings with
  | [] => Good []
  | s :: rest =>
      let v := match setting_value s config with
               | Bad SKey => if apply_defaults then get_default s else Bad SKey
               | r => r
               end in
      match v with
      | Good x => try r <- load_settings rest config apply_defaults allow_missing; Good ((st_name s, x) :: r)
      | Bad SKey =>
          if allow_missing then load_settings rest config apply_defaults allow_missing
          else Bad (SValue (str "'" ++ st_name s ++ str "' not specified"))
      | Bad e => Bad e
      end
  end.

(** * Quiet_config: the names of a class's arguments. *)
Record qclass : Type := mkQC {
  qc_name : bytes;
  qc_positional : list bytes;
  qc_keyword : list bytes
}.
Definition is_name (n : bytes) (l : list bytes) : bool := existsb (bytes_eqb n) l.

(** :412-419 the loop over the keyword arguments. *)
Fixpoint add_keywords (allowed : list bytes) (kwargs : list (bytes * pyval)) (result : dict pyval) : sres (dict pyval) :=
  match kwargs with
  | [] => Good result
  | (name, v) :: rest =>
      if negb (is_name name allowed) then Bad (SValue (str "unknown argument '" ++ name ++ str "'"))
      else if dmem name result then Bad (SValue (name ++ str " specified as both positional and keyword argument"))
      else add_keywords allowed rest (dset name v result)
  end.
(** :390-420 [resolve_arguments]. *)
Definition resolve_arguments (q : qclass) (args : list pyval) (kwargs : list (bytes * pyval)) : sres (dict pyval) :=
  if (List.length (qc_positional q) <? List.length args)%nat then bad "too many positional arguments"
  else
    add_keywords (qc_positional q ++ qc_keyword q) (sort_items kwargs)
      (fold_left (fun d p => dset (fst p) (snd p) d) (combine (qc_positional q) args) []).

(** :422-435 [get_key]. *)
Definition get_key (q : qclass) (args : list pyval) (kwargs : list (bytes * pyval)) : option pyval :=
  match args with
  | v :: _ => Some v
  | [] => match qc_positional q with n :: _ => dget n kwargs | [] => None end
  end.


(** * Settings' interpreters from other modules *)

(** competitions.py:446-453. *)
Definition interpret_board_size : interpreter := fun v =>
  match int_of v with
  | None => bad "invalid integer"
  | Some z => if z <? 2 then bad "too small" else if 25 <? z then bad "too large" else Good v
  end.

(** cem_tuners.py:116-120, mcts_tuners.py:510-514. *)
Definition interpret_candidate_colour : interpreter := fun v =>
  if is_one_of [str "r"; str "random"] v then Good (VStr (str "random")) else interpret_colour v.
