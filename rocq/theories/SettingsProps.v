(** C44, C50, C51: settings. *)
From Coq Require Import QArith.
From Verif Require Import Base Bytes PyStr Dict CommonModel TournModel SgfPropsSpec
  SettingsModel SettingsSpec SettingsProofs SettingsLoadProofs SettingsConfigProofs SettingsMoreProofs.
Open Scope Z_scope.

(** C44: which values are accepted, and what they become. *)
Theorem C44_numbers :
  (forall v r, interpret_bool v = Good r <-> r = v /\ exists b, v = VBool b) /\
  (forall v r, interpret_int v = Good r <-> r = v /\ exists z, int_value v z) /\
  (forall v r, interpret_positive_int v = Good r <-> r = v /\ exists z, int_value v z /\ 0 < z) /\
  (forall v r, interpret_board_size v = Good r <-> r = v /\ exists z, int_value v z /\ 2 <= z <= 25) /\
  (forall f, interpret_float (VFloat f) = Good (VFloat f)) /\
  (forall z, Z.abs z < 2 ^ 53 -> exists q, (q == inject_Z z)%Q /\
     interpret_float (VInt z) = Good (VFloat (FNum q)) /\ interpret_float (VLong z) = Good (VFloat (FNum q))) /\
  (forall v r, interpret_float v = Good r ->
     (exists f, r = VFloat f) /\ ((exists f, v = VFloat f) \/ (exists z, v = VInt z \/ v = VLong z) \/ exists b, v = VBool b)).
Proof.
  split; [exact bool_ok|]. split; [exact int_ok|]. split; [exact positive_ok|]. split; [exact board_size_ok|]. split; [reflexivity|]. split.
  - intros z B. destruct (float_exact z B) as (q & E & Q). exists q. split; [exact Q|]. cbn [interpret_float]. rewrite E. split; reflexivity.
  - intros v r H. apply float_ok in H. destruct H as [(-> & f & ->)|[(z & f & E & _ & ->)|(b & -> & ->)]]; (split; [eexists; reflexivity|eauto]).
Qed.
Print Assumptions C44_numbers.

Theorem C44_strings :
  (forall v r, interpret_8bit_string v = Good r <-> exists s, text v s /\ (forall c, In c s -> ord c <> 0) /\ r = VStr s) /\
  (forall v r, interpret_identifier v = Good r <-> exists s, text v s /\ identifier s /\ r = VStr s) /\
  (forall v r, (forall u, v = VUni u -> Forall (fun z => 0 <= z < 1114112) u) ->
     interpret_as_utf8 v = Good r <->
     (exists s u, v = VStr s /\ utf8 u s /\ r = v) \/ (exists u s, v = VUni u /\ utf8 u s /\ r = VStr s) \/ (v = VNone /\ r = VStr [])) /\
  (forall v s, interpret_as_utf8 v = Good (VStr s) -> interpret_as_utf8_stripped v = Good (VStr (strip s))) /\
  (forall u s, utf8 u s -> exists w1 w2 u', s = w1 ++ strip s ++ w2 /\ forallb is_space w1 = true /\ forallb is_space w2 = true /\
     no_space_at_ends (strip s) /\ utf8 u' (strip s)) /\
  (forall v r, interpret_colour v = Good r <->
    ((colour_word v (str "b") \/ colour_word v (str "black")) /\ r = VStr (str "b")) \/
    ((colour_word v (str "w") \/ colour_word v (str "white")) /\ r = VStr (str "w"))) /\
  (forall v r, interpret_candidate_colour v = Good r <->
    ((text v (str "r") \/ text v (str "random")) /\ r = VStr (str "random")) \/
    ((colour_word v (str "b") \/ colour_word v (str "black")) /\ r = VStr (str "b")) \/
    ((colour_word v (str "w") \/ colour_word v (str "white")) /\ r = VStr (str "w"))) /\
  (forall values v r, interpret_enum values v = Good r <-> r = v /\ exists s, text v s /\ In s values).
Proof.
  split; [exact string_ok|]. split; [exact identifier_ok|]. split; [exact utf8_ok|]. split; [|split; [|split; [exact colour_ok|split; [exact candidate_colour_ok|exact enum_ok]]]].
  - intros v s H. unfold interpret_as_utf8_stripped. rewrite H. reflexivity.
  - intros u s U. destruct (strip_spec s) as (w1 & w2 & E & S1 & S2 & N). destruct (utf8_strip _ _ U) as (u' & U'). exists w1, w2, u'. auto.
Qed.
Print Assumptions C44_strings.

Theorem C44_collections :
  (forall v r, interpret_sequence v = Good r <-> exists l, elements v l /\ r = VList l) /\
  (forall item v r, interpret_sequence_of item v = Good r <->
     exists l xs, elements v l /\ Forall2 (fun a x => item a = Good x) l xs /\ r = VList xs) /\
  (forall item v m, interpret_sequence_of item v = Bad (SValue m) ->
     (m = str "not a sequence" /\ forall l, ~ elements v l) \/
     exists l i x m', elements v l /\ nth_error l i = Some x /\ item x = Bad (SValue m') /\
       m = str "item " ++ str_int (Z.of_nat i) ++ str ": " ++ m' /\
       forall j y, (j < i)%nat -> nth_error l j = Some y -> exists z, item y = Good z) /\
  (forall shlex v r, interpret_shlex_sequence shlex v = Good r <->
     exists l, l <> [] /\ r = VList (map VStr l) /\
     ((exists t, ((exists s, v = VStr s) \/ (exists u, v = VUni u)) /\ text v t /\ (forall c, In c t -> ord c <> 0) /\ shlex t = inl l) \/
      (exists vs, (forall s, v <> VStr s) /\ (forall u, v <> VUni u) /\ elements v vs /\
         Forall2 (fun x s => text x s /\ forall c, In c s -> ord c <> 0) vs l))) /\
  (forall f v r, allow_none f v = Good r <-> (v = VNone /\ r = VNone) \/ (v <> VNone /\ f v = Good r)) /\
  (forall v r, interpret_callable v = Good r <-> r = v /\ exists n, v = VFun n).
Proof.
  split; [exact sequence_ok|]. split; [exact sequence_of_ok|]. split; [exact sequence_of_bad|]. split; [exact shlex_ok|]. split; [exact none_ok|exact callable_ok].
Qed.
Print Assumptions C44_collections.

(** Maps: the interpreted items, sorted by key. *)
Theorem C44_maps :
  forall key value items r,
  (forall k s, key k = Good (VStr s) -> text k s) ->
  (forall i j a b, nth_error items i = Some a -> nth_error items j = Some b -> (i < j)%nat -> py_eqb (fst a) (fst b) = false) ->
  interpret_map_of key value (VDict items) = Good r ->
  exists entries, r = VList (map (fun p => VList [VStr (fst p); snd p]) entries) /\
    increasing (map fst entries) /\
    (forall s x, In (s, x) entries <-> exists k v, In (k, v) items /\ key k = Good (VStr s) /\ value v = Good x).
Proof. exact map_of_dict. Qed.
Print Assumptions C44_maps.

(** Handicaps: none, or at least two stones, and not more than the board allows. *)
Theorem C44_handicaps :
  forall h free size, 2 <= size <= 25 ->
  (validate_handicap h free size = Ok tt <->
   (h = None \/ exists n, h = Some n /\ 2 <= n /\
     (if free then n < size * size else 8 <= size /\ (if Z.even size then n <= 4 else n <= 9)))) /\
  (validate_handicap h free size = Ok tt \/ validate_handicap h free size = Err ControlFileError).
Proof. intros h free size SZ. split; [apply validate_ok; exact SZ|apply validate_error; exact SZ]. Qed.
Print Assumptions C44_handicaps.

(** Refusing is raising ValueError. *)
Theorem C44_refusals :
  refuses_properly interpret_bool /\ refuses_properly interpret_int /\ refuses_properly interpret_positive_int /\
  refuses_properly interpret_board_size /\ refuses_properly interpret_8bit_string /\ refuses_properly interpret_as_utf8 /\
  refuses_properly interpret_as_utf8_stripped /\ refuses_properly interpret_identifier /\ refuses_properly interpret_colour /\
  refuses_properly interpret_candidate_colour /\ (forall values, refuses_properly (interpret_enum values)) /\
  refuses_properly interpret_callable /\ refuses_properly interpret_sequence /\
  (forall f, refuses_properly f -> refuses_properly (interpret_sequence_of f)) /\
  (forall f, refuses_properly f -> refuses_properly (allow_none f)) /\
  refuses_properly (interpret_map_of interpret_8bit_string interpret_8bit_string) /\
  (forall cls name allow, refuses_properly (interpret_quiet_config cls name allow)) /\
  (forall shlex, refuses_properly (interpret_shlex_sequence shlex)) /\
  (forall v e, interpret_float v = Bad e -> (exists m, e = SValue m) \/
     (e = SOther OverflowError /\ exists z, (v = VInt z \/ v = VLong z) /\ 2 ^ 53 <= Z.abs z)).
Proof.
  do 12 (split; [first [exact bool_refuses|exact int_refuses|exact positive_refuses|exact board_size_refuses|exact string_refuses|exact utf8_refuses|
    exact utf8_stripped_refuses|exact identifier_refuses|exact colour_refuses|exact candidate_colour_refuses|exact enum_refuses|exact callable_refuses]|]).
  split; [exact sequence_refuses|]. split; [exact sequence_of_refuses|]. split; [exact allow_none_refuses|]. split.
  { apply map_of_refuses; [exact string_refuses|exact string_refuses|]. intros v r H. apply string_ok in H. destruct H as (s & _ & _ & ->). eauto. }
  split; [exact quiet_config_refuses|]. split; [exact shlex_refuses|].
  intros v e H. destruct v; cbn in H; try (left; unfold bad in H; injection H as <-; eexists; reflexivity); try discriminate.
  - destruct (float_of_int z) eqn:E; [discriminate|]. injection H as <-. right. split; [reflexivity|]. exists z. split; [auto|].
    destruct (Z.lt_ge_cases (Z.abs z) (2 ^ 53)) as [L|L]; [|exact L]. destruct (float_exact z L) as (q & X & _). congruence.
  - destruct (float_of_int z) eqn:E; [discriminate|]. injection H as <-. right. split; [reflexivity|]. exists z. split; [auto|].
    destruct (Z.lt_ge_cases (Z.abs z) (2 ^ 53)) as [L|L]; [|exact L]. destruct (float_exact z L) as (q & X & _). congruence.
Qed.
Print Assumptions C44_refusals.

(** Interpreting an interpreted value leaves it unchanged. *)
Theorem C44_idempotent :
  idempotent interpret_bool /\ idempotent interpret_int /\ idempotent interpret_positive_int /\ idempotent interpret_board_size /\
  idempotent interpret_float /\ idempotent interpret_8bit_string /\ idempotent interpret_identifier /\ idempotent interpret_colour /\
  idempotent interpret_candidate_colour /\ (forall values, idempotent (interpret_enum values)) /\ idempotent interpret_callable /\
  (forall f, idempotent f -> idempotent (interpret_sequence_of f)).
Proof.
  split; [exact bool_idem|]. split; [exact int_idem|]. split; [exact positive_idem|]. split; [exact board_size_idem|]. split; [exact float_idem|].
  split; [exact string_idem|]. split; [exact identifier_idem|]. split; [exact colour_idem|]. split; [exact candidate_colour_idem|]. split; [exact enum_idem|].
  split; [exact callable_idem|exact sequence_of_idem].
Qed.
Print Assumptions C44_idempotent.

Example C44_examples :
  interpret_board_size (VInt 19) = Good (VInt 19) /\ interpret_board_size (VInt 26) = Bad (SValue (str "too large")) /\
  interpret_board_size (VBool true) = Bad (SValue (str "too small")) /\
  interpret_int (VLong 3) = Bad (SValue (str "invalid integer")) /\
  interpret_identifier (VStr (str "gnugo-l1")) = Good (VStr (str "gnugo-l1")) /\
  interpret_identifier (VStr (str "a b")) = Bad (SValue (str "contains forbidden character: a b")) /\
  interpret_colour (VStr (str "Black")) = Good (VStr (str "b")) /\
  interpret_colour (VUni [66; 108; 97; 99; 8490]) = Good (VStr (str "b")) /\
  interpret_map_of interpret_8bit_string interpret_8bit_string (VDict [(VStr (str "b"), VStr (str "1")); (VStr (str "a"), VStr (str "2"))]) =
    Good (VList [VList [VStr (str "a"); VStr (str "2")]; VList [VStr (str "b"); VStr (str "1")]]) /\
  interpret_sequence_of interpret_int (VList [VInt 1; VNone]) = Bad (SValue (str "item 1: invalid integer")) /\
  validate_handicap (Some 4) false 10 = Ok tt /\ validate_handicap (Some 5) false 10 = Err ControlFileError.
Proof. vm_compute. repeat split. Qed.

(** C50: load_settings gives, setting by setting, the interpreted value or the default, up to
    the first error, which names the setting. *)
Theorem C50_load_settings :
  forall settings config apply_defaults allow_missing r,
  (forall s, In s settings -> forall v, st_interpreter s v <> Bad SKey) ->
  load_settings settings config apply_defaults allow_missing = r <-> loads apply_defaults allow_missing config settings r.
Proof. intros settings config ad am r NK. apply load_settings_spec. rewrite Forall_forall. exact NK. Qed.
Print Assumptions C50_load_settings.

(** What a successful load contains, for each setting. *)
Theorem C50_loaded_values :
  forall settings config apply_defaults allow_missing d,
  (forall s, In s settings -> forall v, st_interpreter s v <> Bad SKey) ->
  NoDup (map st_name settings) ->
  load_settings settings config apply_defaults allow_missing = Good d ->
  (forall name, In name (map fst d) -> In name (map st_name settings)) /\
  (forall s, In s settings ->
    match dget (st_name s) config with
    | Some w => exists v x, dget (st_name s) d = Some x /\ st_interpreter s v = Good x /\
                  ((v = w /\ forall cls made, w <> VProxy cls made) \/ exists cls, w = VProxy cls (inl v))
    | None => match (if apply_defaults then st_default s else None) with
              | Some x => dget (st_name s) d = Some x
              | None => allow_missing = true /\ dget (st_name s) d = None
              end
    end).
Proof. exact loaded_values. Qed.
Print Assumptions C50_loaded_values.

(** The interpreters gomill uses never raise KeyError. *)
Theorem C50_no_key_errors :
  (forall v, interpret_any v <> Bad SKey) /\ (forall v, interpret_bool v <> Bad SKey) /\ (forall v, interpret_int v <> Bad SKey) /\
  (forall v, interpret_positive_int v <> Bad SKey) /\ (forall v, interpret_float v <> Bad SKey) /\ (forall v, interpret_8bit_string v <> Bad SKey) /\
  (forall v, interpret_as_utf8 v <> Bad SKey) /\ (forall v, interpret_as_utf8_stripped v <> Bad SKey) /\ (forall v, interpret_identifier v <> Bad SKey) /\
  (forall v, interpret_colour v <> Bad SKey) /\ (forall values v, interpret_enum values v <> Bad SKey) /\ (forall v, interpret_callable v <> Bad SKey) /\
  (forall v, interpret_sequence v <> Bad SKey) /\
  (forall f, (forall v, f v <> Bad SKey) -> forall v, interpret_sequence_of f v <> Bad SKey) /\
  (forall f, (forall v, f v <> Bad SKey) -> forall v, allow_none f v <> Bad SKey) /\
  (forall f g, (forall v, f v <> Bad SKey) -> (forall v, g v <> Bad SKey) -> forall v, interpret_map_of f g v <> Bad SKey) /\
  (forall cls name allow v, interpret_quiet_config cls name allow v <> Bad SKey) /\
  (forall shlex v, interpret_shlex_sequence shlex v <> Bad SKey).
Proof.
  split; [exact any_never_key|]. split; [exact bool_never_key|]. split; [exact int_never_key|]. split; [exact positive_never_key|]. split; [exact float_never_key|].
  split; [exact string_never_key|]. split; [exact utf8_never_key|]. split; [exact utf8_stripped_never_key|]. split; [exact identifier_never_key|].
  split; [exact colour_never_key|]. split; [exact enum_never_key|]. split; [exact callable_never_key|]. split; [exact sequence_never_key|].
  split; [exact sequence_of_never_key|]. split; [exact allow_none_never_key|]. split; [exact map_of_never_key|]. split; [exact quiet_config_never_key|exact shlex_never_key].
Qed.
Print Assumptions C50_no_key_errors.

Definition two_settings : list setting :=
  [mkSetting (str "board_size") interpret_board_size None; mkSetting (str "komi") interpret_float (Some (VFloat (FNum 0)))].
Example C50_examples :
  load_settings two_settings [(str "board_size", VInt 9)] true false = Good [(str "board_size", VInt 9); (str "komi", VFloat (FNum 0))] /\
  load_settings two_settings [(str "board_size", VInt 9); (str "komi", VFloat (FNum (15 # 2))); (str "x", VNone)] true false =
    Good [(str "board_size", VInt 9); (str "komi", VFloat (FNum (15 # 2)))].
Proof. vm_compute. repeat split. Qed.
Example C50_examples_errors :
  load_settings two_settings [(str "board_size", VInt 99)] true false = Bad (SValue (str "'board_size': too large")) /\
  load_settings two_settings [] true false = Bad (SValue (str "'board_size' not specified")) /\
  load_settings two_settings [] true true = Good [(str "komi", VFloat (FNum 0))] /\
  load_settings two_settings [] false true = Good [].
Proof. vm_compute. repeat split. Qed.

(** C51: the arguments of Player(...), Matchup(...), Competitor(...) and Parameter(...). *)
Theorem C51_arguments :
  forall q args kwargs, NoDup (qc_positional q) -> NoDup (map fst kwargs) ->
  (forall d, resolve_arguments q args kwargs = Good d ->
     arguments_ok q args kwargs /\ NoDup (map fst d) /\ forall name v, dget name d = Some v <-> argument q args kwargs name v) /\
  (arguments_ok q args kwargs -> exists d, resolve_arguments q args kwargs = Good d).
Proof. exact resolve_spec. Qed.
Print Assumptions C51_arguments.
Theorem C51_errors :
  forall q args kwargs e, NoDup (qc_positional q) -> NoDup (map fst kwargs) -> resolve_arguments q args kwargs = Bad e ->
  (e = SValue (str "too many positional arguments") /\ (List.length (qc_positional q) < List.length args)%nat) \/
  (exists n v, In (n, v) kwargs /\ ~ In n (qc_positional q ++ qc_keyword q) /\ e = SValue (str "unknown argument '" ++ n ++ str "'")) \/
  (exists n v, In (n, v) kwargs /\ In n (firstn (List.length args) (qc_positional q)) /\
     e = SValue (n ++ str " specified as both positional and keyword argument")).
Proof. exact resolve_bad. Qed.
Print Assumptions C51_errors.
Theorem C51_key :
  forall q args kwargs n rest v, qc_positional q = n :: rest -> NoDup (qc_positional q) -> NoDup (map fst kwargs) -> arguments_ok q args kwargs ->
  get_key q args kwargs = Some v <-> argument q args kwargs n v.
Proof. exact get_key_spec. Qed.
Print Assumptions C51_key.
Definition matchup_class : qclass := mkQC (str "Matchup") [str "player_1"; str "player_2"] [str "id"; str "komi"].
Example C51_examples :
  resolve_arguments matchup_class [VStr (str "a"); VStr (str "b")] [(str "komi", VInt 7)] =
    Good [(str "player_1", VStr (str "a")); (str "player_2", VStr (str "b")); (str "komi", VInt 7)] /\
  resolve_arguments matchup_class [VStr (str "a")] [(str "player_2", VNone)] = Good [(str "player_1", VStr (str "a")); (str "player_2", VNone)] /\
  resolve_arguments matchup_class [VStr (str "a")] [(str "player_1", VNone)] =
    Bad (SValue (str "player_1 specified as both positional and keyword argument")) /\
  resolve_arguments matchup_class [] [(str "kmi", VNone)] = Bad (SValue (str "unknown argument 'kmi'")) /\
  get_key matchup_class [] [(str "player_1", VInt 3)] = Some (VInt 3) /\ NoDup (qc_positional matchup_class).
Proof.
  split; [vm_compute; reflexivity|]. split; [vm_compute; reflexivity|]. split; [vm_compute; reflexivity|]. split; [vm_compute; reflexivity|]. split; [vm_compute; reflexivity|].
  constructor; [intros [X|[]]; discriminate X|]. constructor; [intros []|constructor].
Qed.
