(** Property theorems for gomill/sgf_grammar.py (C10 - C15). *)
From Verif Require Import Base Bytes SgfGrammarModel SgfGrammarSpec SgfGrammarProofs
  SgfParserProofs SgfErrorProofs SgfTextProofs SgfTreeConvModel SgfTreeConvProofs.

(** A tree with an escaped bracket, several values and two variations. *)
Definition ex_tree : ctree :=
  CT [[(str "FF", [str "4"]); (str "AB", [str "aa"; str "bb"])];
      [(str "C", [str "a\]b"]); (str "B", [str "dd"])]]
     [CT [[(str "W", [str "cc"])]] []; CT [[(str "W", [str ""])]; [(str "B", [str "ee"])]] []].


Example ex_tree_good : good_tree ex_tree.
Proof.
  assert (forall v, is_valid_property_value v = true -> good_value v) as GV
    by (intros; apply good_value_valid; auto).
  assert (forall k, is_valid_property_identifier k = true -> good_ident k) as GI
    by (intros; apply good_ident_valid; auto).
  unfold ex_tree.
  repeat match goal with
  | |- good_tree _ => constructor
  | |- Forall _ [] => constructor
  | |- Forall _ (_ :: _) => constructor
  | |- Forall good_value (snd _) => cbn [snd]
  | |- good_node _ => split
  | |- _ /\ _ => split
  | |- _ <> [] => discriminate
  | |- good_value _ => apply GV; vm_compute; reflexivity
  | |- good_ident _ => apply GI; vm_compute; reflexivity
  | |- NoDup [] => constructor
  | |- NoDup _ => simpl; constructor; [simpl; intuition discriminate|]
  end.
Qed.

(** C10. *)

(** The validity predicates offered to users decide the well-formedness the round trip
    asks for. *)
Theorem C10_validity_predicates :
  forall s, (is_valid_property_identifier s = true <-> good_ident s) /\
            (is_valid_property_value s = true <-> good_value s).
Proof. exact C10_validity_proof. Qed.
Print Assumptions C10_validity_predicates.

Theorem C10_game_round_trip :
  forall t wrap, good_tree t ->
    exists out t', serialise_game_tree t wrap = Ok out /\
      parse_sgf_game out = Ok t' /\ same_tree t t'.
Proof. exact C10_game_proof. Qed.
Print Assumptions C10_game_round_trip.

Theorem C10_collection_round_trip :
  forall wrap ts s, Forall good_tree ts -> ts <> [] -> collection_file wrap ts s ->
    exists ts', parse_sgf_collection s = Ok ts' /\ Forall2 same_tree ts ts'.
Proof. exact C10_collection_proof. Qed.
Print Assumptions C10_collection_round_trip.

Example C10_example :
  exists out, serialise_game_tree ex_tree (Some 12) = Ok out /\ (List.length out > 40)%nat /\
    collection_file (Some 12) [ex_tree; ex_tree] (out ++ str " junk) " ++ out ++ str "tail").
Proof.
  eexists. split; [vm_compute; reflexivity|]. split; [vm_compute; lia|].
  match goal with |- collection_file _ _ (?o ++ _) =>
    change (collection_file (Some 12) [ex_tree; ex_tree] ([] ++ o ++ str " junk) " ++ o ++ str "tail")) end.
  apply cf_cons; [constructor|vm_compute; reflexivity|].
  apply cf_cons; [repeat (constructor; [discriminate|]); constructor|vm_compute; reflexivity|].
  apply cf_nil. repeat (constructor; [discriminate|]). constructor.
Qed.

(** C11. *)

Theorem C11_parse_game_total :
  forall s, (exists t, parse_sgf_game s = Ok t /\ parsed_tree t) \/ parse_sgf_game s = Err ValueError.
Proof. exact C11_game_proof. Qed.
Print Assumptions C11_parse_game_total.

Theorem C11_parse_collection_total :
  forall s, (exists ts, parse_sgf_collection s = Ok ts /\ ts <> [] /\ Forall parsed_tree ts) \/
            parse_sgf_collection s = Err ValueError.
Proof. exact C11_collection_proof. Qed.
Print Assumptions C11_parse_collection_total.

(** Whatever was parsed can be written and read again, provided no identifier was
    emptied by dropping its lower-case letters. *)
Theorem C11_reparse :
  forall s t wrap, parse_sgf_game s = Ok t -> named_tree t ->
    exists out t', serialise_game_tree t wrap = Ok out /\ parse_sgf_game out = Ok t' /\ same_tree t t'.
Proof. exact C11_reparse_proof. Qed.
Print Assumptions C11_reparse.

(** The stronger claim, that every identifier of a parsed tree is a valid one, is false
    of the code: an identifier in lower case is accepted and becomes the empty string,
    and the re-serialised game is rejected by the parser. *)
Theorem C11_identifiers_valid_refuted :
  exists s t out, parse_sgf_game s = Ok t /\ t = CT [[([], [str "x"])]] [] /\
    is_valid_property_identifier [] = false /\
    serialise_game_tree t None = Ok out /\ parse_sgf_game out = Err ValueError.
Proof. exists (str "(;a[x])"). eexists. eexists. repeat split; vm_compute; reflexivity. Qed.
Print Assumptions C11_identifiers_valid_refuted.

Example C11_example :
  (exists t, parse_sgf_game (str "junk (;FooBar[a\]]) tail") = Ok t /\ named_tree t) /\
  parse_sgf_game (str "(;B[aa)") = Err ValueError /\
  parse_sgf_game (str "(;B)") = Err ValueError /\
  parse_sgf_game (str "(;()B[aa])") = Err ValueError.
Proof.
  split; [|repeat split; vm_compute; reflexivity].
  eexists. split; [vm_compute; reflexivity|]. constructor; [|constructor].
  constructor; [|constructor]. simpl. intuition discriminate.
Qed.

(** C12. *)

Theorem C12_block_format :
  forall pieces width, exists groups, wrapped width pieces groups /\
    block_format pieces width = join ["010"%char] (map (@List.concat ascii) groups).
Proof. exact C12_block_proof. Qed.
Print Assumptions C12_block_format.

Theorem C12_serialise_wrapping :
  forall t width, exists groups,
    serialise_game_tree t None = Ok (List.concat (List.concat groups)) /\
    serialise_game_tree t (Some width) = Ok (join ["010"%char] (map (@List.concat ascii) groups)) /\
    Forall (fits width) groups /\ breaks_needed width groups /\
    (forall piece, In piece (List.concat groups) -> sgf_piece t piece).
Proof. exact C12_serialise_proof. Qed.
Print Assumptions C12_serialise_wrapping.

Example C12_example :
  block_format [str "abc"; str "de"; str "fghijkl"; str "m"] 5
  = str "abcde" ++ ["010"%char] ++ str "fghijkl" ++ ["010"%char] ++ str "m".
Proof. vm_compute. reflexivity. Qed.

(** C13. *)

Theorem C13_escaped_is_valid : forall s, good_value (escape_text s).
Proof. exact C13_valid_proof. Qed.
Print Assumptions C13_escaped_is_valid.

Theorem C13_text_round_trip : forall s, text_norm s (text_value (escape_text s)).
Proof. exact C13_text_proof. Qed.
Print Assumptions C13_text_round_trip.

Theorem C13_simpletext_round_trip : forall s, exists u, text_norm s u /\
  simpletext_value (escape_text s) = map newline_to_space u.
Proof. exact C13_simpletext_proof. Qed.
Print Assumptions C13_simpletext_round_trip.

Theorem C13_text_exact :
  forall s, Forall (fun c => ~ In c ["009"%char; "011"%char; "012"%char; "013"%char]) s ->
    text_value (escape_text s) = s.
Proof. exact C13_exact_proof. Qed.
Print Assumptions C13_text_exact.

Theorem C13_simpletext_exact :
  forall s, Forall (fun c => ~ In c ["009"%char; "010"%char; "011"%char; "012"%char; "013"%char]) s ->
    simpletext_value (escape_text s) = s.
Proof. exact C13_simple_exact_proof. Qed.
Print Assumptions C13_simpletext_exact.

(** [text_norm] determines its result. *)
Theorem C13_norm_deterministic :
  forall s t, text_norm s t -> forall t', text_norm s t' -> t = t'.
Proof. exact text_norm_fun. Qed.
Print Assumptions C13_norm_deterministic.

(** The meaning of an arbitrary raw value. *)
Theorem C13_raw_meaning :
  forall s, exists u, text_norm s u /\
    unescaped ["010"%char] u (text_value s) /\ unescaped [" "%char] u (simpletext_value s).
Proof. exact C13_meaning_proof. Qed.
Print Assumptions C13_raw_meaning.

Example C13_example :
  text_value (escape_text (str "a\]b:" ++ ["013"%char; "010"%char; "009"%char] ++ str "c"))
  = str "a\]b:" ++ ["010"%char] ++ str " c" /\
  text_value (str "x\" ++ ["013"%char; "010"%char] ++ str "y\]") = str "xy]".
Proof. split; vm_compute; reflexivity. Qed.

(** C14. *)

Theorem C14_compose_round_trip :
  forall a s2, exists first,
    parse_compose (compose (escape_text a) s2) = (first, Some s2) /\
    text_value first = text_value (escape_text a) /\
    simpletext_value first = simpletext_value (escape_text a) /\
    (good_value s2 -> good_value (compose (escape_text a) s2)).
Proof. exact C14_proof. Qed.
Print Assumptions C14_compose_round_trip.

Theorem C14_compose_exact_without_colon :
  forall a s2, ~ In ":"%char a -> good_value a -> parse_compose (compose a s2) = (a, Some s2).
Proof. exact C14_no_colon_proof. Qed.
Print Assumptions C14_compose_exact_without_colon.

Theorem C14_parse_compose_exact :
  forall s a ob, parse_compose s = (a, ob) ->
    match ob with
    | Some b => s = a ++ ":"%char :: b /\ no_bare_colon a
    | None => a = s /\ forall x y, s = x ++ ":"%char :: y -> ~ no_bare_colon x
    end.
Proof. exact C14_exact_proof. Qed.
Print Assumptions C14_parse_compose_exact.

(** The restriction to escaped text is needed: composing a value in which a colon is
    already escaped loses the second part. *)
Theorem C14_prescaped_colon_refuted :
  exists a s2, good_value a /\ good_value s2 /\
    snd (parse_compose (compose a s2)) <> Some s2.
Proof.
  exists (str "a\:b"), (str "c").
  repeat split; try (apply good_value_valid; vm_compute; reflexivity). vm_compute. discriminate.
Qed.
Print Assumptions C14_prescaped_colon_refuted.

Example C14_example :
  parse_compose (compose (escape_text (str "a:b\c]")) (str "d:e")) = (str "a\:b\\c\]", Some (str "d:e")).
Proof. vm_compute. reflexivity. Qed.

(** C15. *)

Theorem C15_make_tree :
  forall t, seqs_ok t -> exists h nt, make_tree t = Ok h /\ denotes t nt /\ reads_node h O nt.
Proof. exact make_tree_ok. Qed.
Print Assumptions C15_make_tree.

Theorem C15_make_coarse :
  forall nt, exists h ct, make_coarse_game_tree nt = Ok h /\ denotes ct nt /\ compact ct /\
    reads_coarse h O ct.
Proof. exact make_coarse_ok. Qed.
Print Assumptions C15_make_coarse.

Theorem C15_round_trip :
  forall t, compact t -> exists h nt h', make_tree t = Ok h /\ reads_node h O nt /\
    make_coarse_game_tree nt = Ok h' /\ reads_coarse h' O t.
Proof. exact C15_round_proof. Qed.
Print Assumptions C15_round_trip.

Theorem C15_main_line :
  forall t nt, denotes t nt -> main_sequence t = first_line nt.
Proof. exact denotes_main. Qed.
Print Assumptions C15_main_line.

(** A coarse tree stands for one node tree, and a node tree for one compact coarse tree. *)
Theorem C15_denotes_functional :
  forall t nt nt', denotes t nt -> denotes t nt' -> nt = nt'.
Proof. exact denotes_fun. Qed.
Print Assumptions C15_denotes_functional.

Theorem C15_denotes_injective :
  forall t t' nt, denotes t nt -> denotes t' nt -> compact t -> compact t' -> t = t'.
Proof. exact denotes_compact_inj. Qed.
Print Assumptions C15_denotes_injective.

Example C15_example : compact ex_tree /\ seqs_ok ex_tree /\
  main_sequence ex_tree =
    [[(str "FF", [str "4"]); (str "AB", [str "aa"; str "bb"])];
     [(str "C", [str "a\]b"]); (str "B", [str "dd"])]; [(str "W", [str "cc"])]].
Proof.
  assert (compact ex_tree) as C.
  { unfold ex_tree.
    repeat match goal with
    | |- compact _ => constructor
    | |- Forall _ [] => constructor
    | |- Forall _ (_ :: _) => constructor
    | |- _ <> _ => discriminate
    end. }
  split; [exact C|]. split; [apply compact_seqs_ok; exact C|]. reflexivity.
Qed.
