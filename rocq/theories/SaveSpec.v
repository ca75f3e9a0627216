(** What the gomill-savesgf command should write (C63), apart from the code. *)
From Verif Require Import Base Bytes PyStr Dict BoardModel BoardSpec SgfGrammarModel SgfGrammarSpec CommonModel
  GameplayModel SgfPropsModel SgfPropsSpec SgfValueSpec SgfTreeModel SgfTreeSpec GameSgfSpec GtpModel GtpStateModel.

(** ** The options *)

(** How a client writes a value in a GTP argument (which can't contain blanks): backslashes are
    doubled, and a blank is a backslash and an underscore. *)
Fixpoint coded (v : bytes) : bytes :=
  match v with
  | [] => []
  | c :: r =>
      (if ceqb c "\"%char then str "\\" else if ceqb c " "%char then str "\_" else [c]) ++ coded r
  end.

(** A value that this works for: it has no backslash that is followed by an underscore (see
    C63_finding_backslash_underscore). *)
Definition codable (v : bytes) : Prop := forall a b, v <> a ++ str "\_" ++ b.

(** [arg] gives property [k] the value [v]: it is a name, in upper or lower case, followed by
    "=" and the value. *)
Definition option_arg (arg : bytes) (kv : bytes * bytes) : Prop :=
  let (k, v) := kv in
  exists name, arg = name ++ str "=" ++ coded v /\
    (1 <= List.length name <= 64)%nat /\ Forall (fun c => is_letter c = true) name /\
    k = map upper_char name /\ codable v.

(** The value given to a property: the last counts. *)
Definition value_given (opts : list (bytes * bytes)) (k : bytes) : option bytes := dget k (rev opts).

Definition names (opts : list (bytes * bytes)) : list bytes := map fst opts.

(** The property is the text [v]: that is so in the file, up to white space (see [text_norm]); and
    reading it gives that text, if texts are what that property is for. *)
Definition option_is (w : world) (n : nat) (k v : bytes) : Prop :=
  (exists raw, get_raw_list w n k = Ok [raw] /\ text_norm v (text_value raw)) /\
  (is_utf8 v -> forall t, type_of w n k t -> t = PT_text \/ t = PT_simpletext -> value_is w n k t (VText v)).

(** ** The root node *)

(** The stones of one colour. *)
Definition stones_are (b : board) (c : colour) (l : list point) : Prop :=
  NoDup l /\ forall p, In p l <-> on_board (side b) p /\ view b p = Some c.

Definition point_value (l : list point) : option pvalue := match l with [] => None | _ => Some (VPoints l) end.

(** Whether the record says who plays first: it does if that isn't who one would expect (White if
    there is a handicap, Black otherwise), or if there are stones other than those of a handicap. *)
Definition tells_first (handicap : bool) (ab aw : list point) (first : colour) : bool :=
  match aw with
  | _ :: _ => true
  | [] => (negb handicap && match ab with [] => false | _ => true end) ||
          negb (colour_eqb first (if handicap then White else Black))
  end.

(** Whether the record says that there is a handicap. *)
Definition has_handicap (st : gstate) (opts : list (bytes * bytes)) : bool :=
  match st_handicap st, value_given opts (str "HA") with None, None => false | _, _ => true end.

(** The properties that don't come from the options. *)
Definition saved_root (version today : bytes) (st : gstate) (handicap : bool) (ab aw : list point) (first : colour) : content :=
  put_if (str "PL") PT_colour (if tells_first handicap ab aw first then Some (VColour first) else None) (
  put_if (str "AW") PT_point_list (point_value aw) (
  put_if (str "AB") PT_point_list (point_value ab) (
  put_if (str "HA") PT_number (option_map VInt (st_handicap st)) (
  put (str "DT") PT_simpletext (VText today) (
  put (str "AP") PT_AP (VPair (str "gomill") version) (
  put (str "KM") PT_real (VReal (fst (st_komi st)) (snd (st_komi st))) (
  put (str "CA") PT_simpletext (VText (str "UTF-8")) (
  put (str "SZ") PT_number (VInt (st_size st)) (
  put (str "GM") PT_number (VInt 1) (
  put (str "FF") PT_number (VInt 4) (mkContent [] None))))))))))).

(** The node has these properties and those of the options, and no others. *)
Definition root_shows (w : world) (c : content) (opts : list (bytes * bytes)) (n : nat) : Prop :=
  forall k,
    match value_given opts k with
    | Some v => option_is w n k v
    | None =>
        match dget k (ct_props c) with
        | Some (t, v) => value_is w n k t v
        | None => has_property w n k = false
        end
    end.

(** ** The whole file *)

Definition history_moves (st : gstate) : list (colour * gmove * option bytes) :=
  map (fun h => (h_colour h, h_move h, h_comments h)) (st_history st).

(** The game is the one of the state, with the options, and [first] plays first. *)
Definition shows_state (version today : bytes) (st : gstate) (opts : list (bytes * bytes)) (first : colour)
  (w : world) (i : nat) (g : game) : Prop :=
  exists nodes ab aw,
    game_at w i = Some g /\ g_size g = st_size st /\
    tree_of w (g_root g) (line (g_root g) nodes) /\
    stones_are (st_base st) Black ab /\ stones_are (st_base st) White aw /\
    root_shows w (saved_root version today st (has_handicap st opts) ab aw first) opts (g_root g) /\
    Forall2 (node_shows w) (map the_move (history_moves st)) nodes.

(** What can be saved. *)
Record savable (st : gstate) : Prop := mkSavable {
  sb_size : st_size st <= 25;
  sb_komi : komi_ok (st_komi st);
  sb_comments : forall h c, In h (st_history st) -> h_comments h = Some c -> is_utf8 c
}.

(** The komi that is read: one below 0.0001 becomes 0. *)
Definition komi_read (k : Z * nat) : Z * nat :=
  if Z.abs (fst k) * 10000 <? 10 ^ Z.of_nat (snd k) then (0, O) else k.
