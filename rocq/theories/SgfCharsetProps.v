(** Property theorems for the character sets of gomill/sgf.py (C67). *)
From Verif Require Import Base Bytes PyStr Dict SgfGrammarModel SgfGrammarSpec CommonModel BoardSpec SgfPropsModel
  SgfPropsSpec SgfValueSpec SgfTreeModel SgfTreeSpec SgfTreeMainProofs SgfNavProofs SgfSaveProofs
  SgfCharsetModel SgfCharsetSpec SgfCharsetReadProofs SgfCharsetMainProofs.

(** ** Charset names *)

(** [normalise_charset_name]: whatever name of a known codec is given, its normal name comes
    back, and an unknown one is refused. *)
Theorem C67_charset_names :
  forall reg s,
  (forall e, reg s = Some e -> ~ has_nul s -> normalise_charset_name reg s = Charset (encoding_name e)) /\
  (reg s = None -> ~ has_nul s -> normalise_charset_name reg s = UnknownCharset).
Proof.
  intros reg s. rewrite normalise_proof. pose proof (has_nul_exists s) as HN.
  destruct (existsb _ s); split.
  - intros e _ N. contradiction N. apply HN. reflexivity.
  - intros _ N. contradiction N. apply HN. reflexivity.
  - intros e E _. rewrite E. reflexivity.
  - intros E _. rewrite E. reflexivity.
Qed.
Print Assumptions C67_charset_names.

(** [get_charset]: ISO-8859-1 if the root has no CA, the normal name if it has a known one
    (CA not being registered under another type); ValueError for an unknown one, which
    makes saving raise ValueError too. *)
Theorem C67_get_charset :
  forall reg w g x e, node_at w (g_root g) = Some x -> type_of w (g_root g) (str "CA") PT_simpletext ->
  names_charset reg (t_props x) e -> get_charset reg w g = Ok (encoding_name e).
Proof.
  intros reg w g x e Ex (y & pr & Ey & P & T). assert (y = x) as -> by congruence. eapply C67_charset_proof; eauto.
Qed.
Print Assumptions C67_get_charset.

Theorem C67_unknown_charset :
  forall reg w g n wrap, type_of w (g_root g) (str "CA") PT_simpletext ->
  get_raw_list w (g_root g) (str "CA") = Ok [n] -> plain_name n -> reg n = None ->
  get_charset reg w g = Err ValueError /\ save_game reg w g wrap = NotSaved ValueError.
Proof.
  intros reg w g n wrap (y & pr & Ey & P & T) GR PN RN.
  unfold get_raw_list in GR. rewrite Ey in GR. eapply C67_unknown_proof; eauto. rewrite lookup_dget.
  destruct (dget (str "CA") (t_props y)); congruence.
Qed.
Print Assumptions C67_unknown_charset.

(** ** Loading *)

(** [from_string] reads the text under the encoding given, or else the one the root's CA
    names, or else ISO-8859-1 (C47_load_any_text says what loading then does).  An unknown
    name raises ValueError; a name with a NUL in it may raise TypeError, although the
    documentation promises ValueError.  Nothing changes then. *)
Theorem C67_from_string :
  forall reg w s override,
  match parse_sgf_game s with
  | Err _ => from_string reg w s override = (w, Err ValueError)
  | Ok t => exists m sq n, c_sequence t = m :: sq /\ reads_under override m n /\
      (forall e, reg n = Some e -> ~ has_nul n ->
         from_string reg w s override = load_string w s e (match override with Some _ => true | None => false end)) /\
      (reg n = None -> ~ has_nul n -> from_string reg w s override = (w, Err ValueError)) /\
      (has_nul n -> exists ex, (ex = ValueError \/ ex = TypeError) /\ from_string reg w s override = (w, Err ex))
  end.
Proof. exact C67_from_string_proof. Qed.
Print Assumptions C67_from_string.

(** With an encoding given, the game is the one the text holds, except that CA names the
    encoding it was read under. *)
Theorem C67_override_sets_CA :
  forall w s e w1, reachable_world w -> load_string w s e true = (w1, Ok tt) ->
  exists w0 g, load_string w s e false = (w0, Ok tt) /\ game_at w0 (List.length (w_games w)) = Some g /\
    g_pres g = new_presenter (g_size g) e /\
    only_changes w0 (g_root g) [str "CA"] w1 /\
    get_raw_list w1 (g_root g) (str "CA") = Ok [encoding_name e].
Proof. exact C67_override_proof. Qed.
Print Assumptions C67_override_sets_CA.

(** ** Saving *)

(** When CA names the encoding the raw values are in, the values are written as they are
    (the text is that of C47_save_then_load), even if they are improperly encoded. *)
Theorem C67_same_encoding :
  forall reg w i g wrap, reachable_world w -> game_at w i = Some g ->
  get_charset reg w g = Ok (encoding_name (game_encoding g)) ->
  exists out, serialise_game w g wrap = Ok out /\ save_game reg w g wrap = Saved out.
Proof. exact C67_same_proof. Qed.
Print Assumptions C67_same_encoding.

(** When it names another one: UnicodeDecodeError exactly if some value of the tree is
    improperly encoded; else UnicodeEncodeError exactly if some value can't be represented
    in the target encoding; else the text is written in the target encoding. *)
Theorem C67_other_encoding :
  forall reg w i g d e2 wrap,
  knows_names reg -> reachable_world w -> game_at w i = Some g -> data_of w (g_root g) d ->
  get_charset reg w g = Ok (encoding_name e2) -> e2 <> game_encoding g ->
  match save_game reg w g wrap with
  | Saved out => (forall v, value_in d v -> exists v', recoded (game_encoding g) e2 v v') /\
                 exists text, serialise_game w g wrap = Ok text /\ recoded (game_encoding g) e2 text out
  | UnicodeDecodeError => exists v, value_in d v /\ ~ proper (game_encoding g) v
  | UnicodeEncodeError => (forall v, value_in d v -> proper (game_encoding g) v) /\
                          exists v, value_in d v /\ ~ exists v', recoded (game_encoding g) e2 v v'
  | NotSaved _ => False
  end.
Proof. exact C67_saved_proof. Qed.
Print Assumptions C67_other_encoding.

(** What is written loads, in the target encoding, as a game of the same size with the same
    tree, each value spelling the same text in the new encoding; and when CA is plain, the
    plain [from_string] picks that encoding by itself. *)
Theorem C67_save_then_load :
  forall reg w i g d e2 wrap out,
  knows_names reg -> reachable_world w -> game_at w i = Some g -> data_of w (g_root g) d -> all_named d ->
  get_charset reg w g = Ok (encoding_name e2) -> e2 <> game_encoding g ->
  save_game reg w g wrap = Saved out ->
  forall w0, reachable_world w0 -> exists w1 g' d',
      load_string w0 out e2 false = (w1, Ok tt) /\
      game_at w1 (List.length (w_games w0)) = Some g' /\
      g_pres g' = new_presenter (g_size g) e2 /\ data_of w1 (g_root g') d' /\
      recoded_tree (game_encoding g) e2 d d' /\
      (forall n x, node_at w0 n = Some x -> node_at w1 n = Some x) /\
      (forall j gj, game_at w0 j = Some gj -> game_at w1 j = Some gj) /\
      (names_charset reg match d with NT m _ => m end e2 -> from_string reg w0 out None = (w1, Ok tt)).
Proof. exact C67_load_proof. Qed.
Print Assumptions C67_save_then_load.

(** ** Reading *)

(** Of two nodes whose raw values spell the same text, each in its game's encoding, [get]
    returns the same value for every property. *)
Theorem C67_values_read_the_same :
  forall w n x g w' n' x' g' e' k v,
  node_at w n = Some x -> game_at w (t_owner x) = Some g -> node_at w' n' = Some x' -> game_at w' (t_owner x') = Some g' ->
  g_size g <= 26 ->
  g_pres g' = mkPres (mkCtx (g_size g) e') (pr_types (g_pres g)) (pr_default (g_pres g)) ->
  (forall k, match lookup k (t_props x), lookup k (t_props x') with
             | None, None => True
             | Some vs, Some vs' => Forall2 (recoded (game_encoding g) e') vs vs'
             | _, _ => False
             end) ->
  (get_prop w n k = Ok v <-> get_prop w' n' k = Ok v).
Proof. exact C67_values_proof. Qed.
Print Assumptions C67_values_read_the_same.

(** ** Examples *)

(** A small part of Python's registry. *)
Definition some_names : registry := fun n =>
  if bytes_eqb n (str "UTF-8") || bytes_eqb n (str "utf8") then Some UTF_8
  else if bytes_eqb n (str "ISO-8859-1") || bytes_eqb n (str "latin-1") then Some ISO_8859_1
  else if bytes_eqb n (str "ASCII") || bytes_eqb n (str "us-ascii") then Some ASCII
  else None.
Example C67_some_names : knows_names some_names.
Proof. intros e. destruct e; reflexivity. Qed.
Example C67_names : normalise_charset_name some_names (str "latin-1") = Charset (str "ISO-8859-1") /\
  normalise_charset_name some_names (str "klingon") = UnknownCharset.
Proof. split; reflexivity. Qed.

(** A game in UTF-8 with "é" in a comment (two bytes), then told to use another charset. *)
Definition e_acute : bytes := [chr 195; chr 169].
Definition snowman : bytes := [chr 226; chr 152; chr 131].
Definition in_utf8 (comment charset : bytes) : world :=
  fst (set_raw (fst (load_string empty_world (str "(;SZ[9]CA[utf8];B[aa]C[" ++ comment ++ str "])") UTF_8 false))
    0 (str "CA") charset).
Lemma load_reachable w s e ov :
  reachable_world w -> applicable w (LoadString s e ov) -> reachable_world (fst (load_string w s e ov)).
Proof. intros R A. exact (rw_step w (LoadString s e ov) R A). Qed.
Lemma set_raw_reachable w n k v :
  reachable_world w -> applicable w (SetRaw n k v) -> reachable_world (fst (set_raw w n k v)).
Proof. intros R A. exact (rw_step w (SetRaw n k v) R A). Qed.
Lemma in_utf8_reachable comment charset :
  w_nodes (in_utf8 comment charset) <> [] -> reachable_world (in_utf8 comment charset).
Proof.
  unfold in_utf8. generalize (str "(;SZ[9]CA[utf8];B[aa]C[" ++ comment ++ str "])"). intros s.
  pose proof (load_reachable empty_world s UTF_8 false rw_empty (conj (Forall_nil _) (Forall_nil _))) as R. revert R.
  generalize (fst (load_string empty_world s UTF_8 false)). intros [ns gs] R H.
  apply set_raw_reachable; auto. split; [|constructor]. constructor; [|constructor].
  destruct ns as [|n ns]; [|cbn; lia]. contradiction H. reflexivity.
Qed.
Definition save_of (w : world) : saved :=
  match game_at w 0 with Some g => save_game some_names w g None | None => NotSaved IndexError end.
Example C67_to_latin : save_of (in_utf8 e_acute (str "latin-1")) =
  Saved (str "(;CA[latin-1]SZ[9];B[aa]C[" ++ [chr 233] ++ str "])" ++ [char_lf]).
Proof. vm_compute. reflexivity. Qed.
Example C67_unchanged : save_of (in_utf8 [chr 255] (str "UTF-8")) =
  Saved (str "(;CA[UTF-8]SZ[9];B[aa]C[" ++ [chr 255] ++ str "])" ++ [char_lf]).
Proof. vm_compute. reflexivity. Qed.
Example C67_not_utf8 : save_of (in_utf8 [chr 255] (str "latin-1")) = UnicodeDecodeError.
Proof. vm_compute. reflexivity. Qed.
Example C67_not_latin : save_of (in_utf8 snowman (str "latin-1")) = UnicodeEncodeError.
Proof. vm_compute. reflexivity. Qed.
Example C67_klingon : save_of (in_utf8 e_acute (str "klingon")) = NotSaved ValueError.
Proof. vm_compute. reflexivity. Qed.

(** The hypotheses of the theorems on saving, met by that game. *)
Example C67_hypotheses :
  let w := in_utf8 e_acute (str "latin-1") in
  exists g d, reachable_world w /\ game_at w 0 = Some g /\ data_of w (g_root g) d /\ all_named d /\
    get_charset some_names w g = Ok (encoding_name ISO_8859_1) /\ ISO_8859_1 <> game_encoding g /\
    value_in d e_acute /\ recoded (game_encoding g) ISO_8859_1 e_acute [chr 233] /\
    names_charset some_names match d with NT m _ => m end ISO_8859_1.
Proof.
  intros w. eexists. eexists. split; [apply in_utf8_reachable; vm_compute; discriminate|]. split; [vm_compute; reflexivity|].
  split; [repeat (econstructor; try (vm_compute; reflexivity))|].
  split; [repeat (constructor; try (simpl; intuition discriminate))|].
  split; [vm_compute; reflexivity|]. split; [vm_compute; discriminate|].
  split; [eapply vi_below; [left; reflexivity|]; eapply vi_here; [right; left; reflexivity|left; reflexivity]|].
  split.
  - exists [233]. split.
    + change e_acute with (e_acute ++ []). constructor; [|constructor]. unfold e_acute. apply (u8_2 233 _ _ 3 41); vm_compute; auto; split; congruence.
    + constructor; [|constructor]. vm_compute. auto.
  - vm_compute. eexists. split; [reflexivity|]. split; [|reflexivity]. repeat (apply Forall_cons; [vm_compute; intuition discriminate|]); apply Forall_nil.
Qed.

(** A NUL in CA. *)
Example C67_nul_in_CA :
  snd (from_string some_names empty_world (str "(;CA[" ++ [chr 0] ++ str "])") None) = Err TypeError.
Proof. vm_compute. reflexivity. Qed.
Example C67_load_default : exists g,
  game_at (fst (from_string some_names empty_world (str "(;SZ[9]C[x])") None)) 0 = Some g /\ game_encoding g = ISO_8859_1.
Proof. eexists. split; [vm_compute; reflexivity|vm_compute; reflexivity]. Qed.
Example C67_load_override :
  let o := from_string some_names empty_world (str "(;CA[latin-1]C[x])") (Some (str "utf8")) in
  snd o = Ok tt /\ get_raw_list (fst o) 0 (str "CA") = Ok [str "UTF-8"].
Proof. vm_compute. auto. Qed.
