(** What the settings' properties mean (C44, C50, C51), apart from the code's interpreters. *)
From Coq Require Import QArith.
From Verif Require Import Base Bytes PyStr Dict SgfPropsSpec SettingsModel.
Open Scope Z_scope.

(** ** Values *)
(** An 'int'; True and False are 1 and 0. *)
Inductive int_value : pyval -> Z -> Prop :=
| iv_int z : int_value (VInt z) z
| iv_true : int_value (VBool true) 1
| iv_false : int_value (VBool false) 0.

(** An 8-bit string, or a unicode string of ASCII characters. *)
Inductive text : pyval -> bytes -> Prop :=
| tx_str s : text (VStr s) s
| tx_uni u s : Forall2 (fun z c => ord c = z /\ z < 128) u s -> text (VUni u) s.

Definition letter_or_digit (c : ascii) : Prop :=
  97 <= ord c <= 122 \/ 65 <= ord c <= 90 \/ 48 <= ord c <= 57.
Definition identifier (s : bytes) : Prop :=
  s <> [] /\ forall c, In c s -> letter_or_digit c \/ In c (str "-!$%&*+,.:;<=>?^_~").

(** The word [w] (lower case) in any mixture of cases. *)
Definition spelt (w s : bytes) : Prop := Forall2 (fun d c => c = d \/ c = upper_char d) w s.
(** In a unicode string 'i' can be a capital I with a dot, and 'k' a Kelvin sign. *)
Definition uni_spelt (w : bytes) (u : list Z) : Prop :=
  Forall2 (fun d z => z = ord d \/ z = ord (upper_char d) \/ (d = "i"%char /\ z = 304) \/ (d = "k"%char /\ z = 8490)) w u.
Definition colour_word (v : pyval) (w : bytes) : Prop :=
  (exists s, v = VStr s /\ spelt w s) \/ (exists u, v = VUni u /\ uni_spelt w u).

(** The elements of an iterable value. *)
Inductive elements : pyval -> list pyval -> Prop :=
| el_list l : elements (VList l) l
| el_dict items : elements (VDict items) (map fst items)
| el_str s : elements (VStr s) (map (fun c => VStr [c]) s)
| el_uni u : elements (VUni u) (map (fun z => VUni [z]) u).

(** Strictly increasing. *)
Fixpoint increasing (l : list bytes) : Prop :=
  match l with
  | [] => True
  | x :: rest => match rest with [] => True | y :: _ => bytes_ltb x y = true end /\ increasing rest
  end.

Definition no_space_at_ends (s : bytes) : Prop :=
  (forall c t, s = c :: t -> is_space c = false) /\ (forall c t, s = t ++ [c] -> is_space c = false).
(** Everything refused is refused with ValueError. *)
Definition refuses_properly (f : interpreter) : Prop := forall v e, f v = Bad e -> exists m, e = SValue m.
(** Interpreting an interpreted value leaves it unchanged. *)
Definition idempotent (f : interpreter) : Prop := forall v r, f v = Good r -> f r = Good r.

(** ** Settings *)
(** The value given for a setting: Config_proxy objects stand for what they describe. *)
Definition given (config : dict pyval) (name : bytes) (v : pyval) : Prop :=
  exists w, dget name config = Some w /\
    ((v = w /\ forall cls made, w <> VProxy cls made) \/ exists cls, w = VProxy cls (inl v)).

(** The outcome for one setting: its value, a default, nothing, or an error. *)
Inductive outcome (apply_defaults : bool) (config : dict pyval) (s : setting) : sres (option pyval) -> Prop :=
| oc_value v x : given config (st_name s) v -> st_interpreter s v = Good x ->
    outcome apply_defaults config s (Good (Some x))
| oc_default x : dget (st_name s) config = None -> apply_defaults = true -> st_default s = Some x ->
    outcome apply_defaults config s (Good (Some x))
| oc_missing : dget (st_name s) config = None -> apply_defaults = false \/ st_default s = None ->
    outcome apply_defaults config s (Good None)
(** The error messages begin with the setting's name in quotes. *)
| oc_bad_value v m : given config (st_name s) v -> st_interpreter s v = Bad (SValue m) ->
    outcome apply_defaults config s (Bad (SValue (str "'" ++ st_name s ++ str "': " ++ m)))
| oc_bad_proxy cls m : dget (st_name s) config = Some (VProxy cls (inr m)) ->
    outcome apply_defaults config s
      (Bad (SValue (str "'" ++ st_name s ++ str "': invalid parameters for " ++ cls ++ str ":" ++ [char_lf] ++ m)))
| oc_other v e : given config (st_name s) v -> st_interpreter s v = Bad e -> (forall m, e <> SValue m) ->
    outcome apply_defaults config s (Bad e).

(** load_settings: in order, up to the first error. *)
Inductive loads (apply_defaults allow_missing : bool) (config : dict pyval) : list setting -> sres (dict pyval) -> Prop :=
| ld_nil : loads apply_defaults allow_missing config [] (Good [])
| ld_set s rest x d : outcome apply_defaults config s (Good (Some x)) ->
    loads apply_defaults allow_missing config rest (Good d) ->
    loads apply_defaults allow_missing config (s :: rest) (Good ((st_name s, x) :: d))
| ld_skip s rest d : outcome apply_defaults config s (Good None) -> allow_missing = true ->
    loads apply_defaults allow_missing config rest (Good d) ->
    loads apply_defaults allow_missing config (s :: rest) (Good d)
| ld_missing s rest : outcome apply_defaults config s (Good None) -> allow_missing = false ->
    loads apply_defaults allow_missing config (s :: rest) (Bad (SValue (str "'" ++ st_name s ++ str "' not specified")))
| ld_error s rest e : outcome apply_defaults config s (Bad e) ->
    loads apply_defaults allow_missing config (s :: rest) (Bad e)
| ld_later s rest x e : outcome apply_defaults config s (Good x) -> (x = None -> allow_missing = true) ->
    loads apply_defaults allow_missing config rest (Bad e) ->
    loads apply_defaults allow_missing config (s :: rest) (Bad e).

(** ** Arguments *)
(** [v] is the argument [name]: by position or by name. *)
Definition argument (q : qclass) (args : list pyval) (kwargs : list (bytes * pyval)) (name : bytes) (v : pyval) : Prop :=
  (exists i, nth_error (qc_positional q) i = Some name /\ nth_error args i = Some v) \/ In (name, v) kwargs.
(** The arguments are acceptable. *)
Definition arguments_ok (q : qclass) (args : list pyval) (kwargs : list (bytes * pyval)) : Prop :=
  (List.length args <= List.length (qc_positional q))%nat /\
  (forall name v, In (name, v) kwargs -> In name (qc_positional q ++ qc_keyword q)) /\
  (forall name v, In (name, v) kwargs -> ~ In name (firstn (List.length args) (qc_positional q))).
