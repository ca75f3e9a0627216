(** Model of gomill/sgf_grammar.py. *)
From Verif Require Import Base Bytes.

(** * Property maps and trees *)

(** A property map (sgf_grammar.py:11-18): a dict from PropIdent to a list of raw
    values, as an association list in insertion order. *)
Definition pmap := list (bytes * list bytes).

Fixpoint lookup (k : bytes) (m : pmap) : option (list bytes) :=
  match m with
  | [] => None
  | (k', v) :: rest => if bytes_eqb k k' then Some v else lookup k rest
  end.

(** sgf_grammar.py:126-142 class Coarse_game_tree. *)
Inductive ctree : Type := CT (sequence : list pmap) (children : list ctree).

Definition c_sequence (t : ctree) : list pmap := match t with CT s _ => s end.
Definition c_children (t : ctree) : list ctree := match t with CT _ c => c end.

(** * Regular expressions, as scanners *)

(** sgf_grammar.py:27, 42-57 [is_valid_property_identifier]:
    [\A[A-Z]{1,64}\Z]. *)
Definition is_valid_property_identifier (s : bytes) : bool :=
  forallb is_upper s && (1 <=? List.length s)%nat && (List.length s <=? 64)%nat.

(** sgf_grammar.py:28-29, 59-68 [is_valid_property_value]: no unescaped ']' and no
    trailing unescaped backslash ([.] matches every character: DOTALL). *)
Fixpoint is_valid_property_value (s : bytes) : bool :=
  match s with
  | [] => true
  | c :: rest =>
      if ceqb c char_bs then
        match rest with [] => false | _ :: rest' => is_valid_property_value rest' end
      else if ceqb c char_rb then false
      else is_valid_property_value rest
  end.

(** [\s*]: skip white space. *)
Fixpoint skip_space (s : bytes) : bytes :=
  match s with
  | [] => []
  | c :: rest => if is_space c then skip_space rest else s
  end.

(** sgf_grammar.py:30, 99 [_find_start_re.search]: the suffix starting at the
    first '(' that is followed by optional white space and ';'.  (A position in
    the Python string is represented by the suffix starting there.) *)
Fixpoint find_start (s : bytes) : option bytes :=
  match s with
  | [] => None
  | c :: rest =>
      if ceqb c "("%char &&
         match skip_space rest with x :: _ => ceqb x ";"%char | [] => false end
      then Some s
      else find_start rest
  end.

(** The PropValue part of [_tokenise_re] (sgf_grammar.py:33-34), after the '[': the raw
    value and what follows the closing ']'. *)
Fixpoint scan_value (s : bytes) : option (bytes * bytes) :=
  match s with
  | [] => None
  | c :: rest =>
      if ceqb c char_rb then Some ([], rest)
      else if ceqb c char_bs then
        match rest with
        | [] => None
        | d :: rest' =>
            match scan_value rest' with
            | Some (v, tl) => Some (c :: d :: v, tl)
            | None => None
            end
        end
      else match scan_value rest with
           | Some (v, tl) => Some (c :: v, tl)
           | None => None
           end
  end.

(** [[A-Za-z]{1,64}]: greedy, at most [n] more letters. *)
Fixpoint take_letters (n : nat) (s : bytes) : bytes * bytes :=
  match n, s with
  | S n', c :: rest =>
      if is_letter c then let (a, b) := take_letters n' rest in (c :: a, b) else ([], s)
  | _, _ => ([], s)
  end.

(** Tokens: type and contents (sgf_grammar.py:84-87). *)
Inductive token : Type :=
| TokI (ident : bytes)
| TokV (value : bytes)
| TokD (delim : ascii).

(** sgf_grammar.py:31-40, 105-110: one match of [_tokenise_re] at the start of [s],
    with the lower-case letters removed from identifiers. *)
Definition next_token (s : bytes) : option (token * bytes) :=
  match skip_space s with
  | [] => None
  | c :: rest =>
      if ceqb c char_lb then
        match scan_value rest with
        | Some (v, tl) => Some (TokV v, tl)
        | None => None
        end
      else if is_letter c then
        let (a, b) := take_letters 64 (c :: rest) in
        Some (TokI (filter (fun x => negb (is_lower x)) a), b)
      else if ceqb c ";"%char || ceqb c "("%char || ceqb c ")"%char then Some (TokD c, rest)
      else None
  end.

(** sgf_grammar.py:104-120: the loop of [tokenise]. *)
Fixpoint tokenise_loop (fuel : nat) (s : bytes) (depth : Z) : res (list token * bytes) :=
  match next_token s with
  | None => Ok ([], s)
  | Some (t, rest) =>
      match fuel with
      | O => Err OutOfFuel
      | S fuel' =>
          match t with
          | TokD c =>
              if ceqb c "("%char then
                do (ts, tl) <- tokenise_loop fuel' rest (depth + 1); Ok (t :: ts, tl)
              else if ceqb c ")"%char then
                if depth - 1 =? 0 then Ok ([t], rest)
                else do (ts, tl) <- tokenise_loop fuel' rest (depth - 1); Ok (t :: ts, tl)
              else do (ts, tl) <- tokenise_loop fuel' rest depth; Ok (t :: ts, tl)
          | _ => do (ts, tl) <- tokenise_loop fuel' rest depth; Ok (t :: ts, tl)
          end
      end
  end.

(** sgf_grammar.py:73-124 [tokenise].  Returns the tokens and the unprocessed tail
    (when no start is found Python returns position 0, i.e. the whole string). *)
Definition tokenise (s : bytes) : res (list token * bytes) :=
  match find_start s with
  | None => Ok ([], s)
  | Some s' => tokenise_loop (List.length s') s' 0
  end.

(** * The parser *)

(** Game trees under construction: [game_tree.sequence] and [game_tree.children]. *)
Record gtree : Type := mkG { gt_sequence : list pmap; gt_children : list ctree }.

(** Local variables of [_parse_sgf_game] (sgf_grammar.py:149-152).  [sequence]'s last
    element is the dict also bound to [properties] when that is not None; the model
    keeps it apart in [p_props], and [full_sequence] puts it back. *)
Record pstate : Type := mkP {
  p_stack : list (option gtree);
  p_tree : option gtree;
  p_seq : option (list pmap);
  p_props : option pmap
}.

Definition full_sequence (l : list pmap) (props : option pmap) : list pmap :=
  match props with None => l | Some m => l ++ [m] end.

(** [properties[k] += v] or [properties[k] = v] (sgf_grammar.py:195-199). *)
Fixpoint add_values (k : bytes) (v : list bytes) (m : pmap) : pmap :=
  match m with
  | [] => [(k, v)]
  | (k', v') :: rest =>
      if bytes_eqb k k' then (k', v' ++ v) :: rest else (k', v') :: add_values k v rest
  end.

(** sgf_grammar.py:186-191: collect the TokV tokens. *)
Fixpoint span_values (ts : list token) : list bytes * list token :=
  match ts with
  | TokV v :: rest => let (a, b) := span_values rest in (v :: a, b)
  | _ => ([], ts)
  end.

(** sgf_grammar.py:154-203: the parser's main loop.  On [break] it returns the parsed
    tree and the tokens not yet consumed. *)
Fixpoint parse_loop (fuel : nat) (ts : list token) (st : pstate) : res (ctree * list token) :=
  match ts with
  | [] => Err ValueError                                (* IndexError -> ValueError *)
  | t :: rest =>
      match fuel with
      | O => Err OutOfFuel
      | S fuel' =>
          match t with
          | TokV _ => Err ValueError                    (* unexpected value *)
          | TokD c =>
              if ceqb c ";"%char then
                match p_seq st with
                | None => Err ValueError                (* unexpected node *)
                | Some l =>
                    parse_loop fuel' rest
                      (mkP (p_stack st) (p_tree st) (Some (full_sequence l (p_props st))) (Some []))
                end
              else
                do gt <-
                  match p_seq st with
                  | None => Ok (p_tree st)
                  | Some l =>
                      match full_sequence l (p_props st) with
                      | [] => Err ValueError            (* empty sequence *)
                      | l' =>
                          match p_tree st with
                          | None => Err AttributeError  (* None.sequence = ... *)
                          | Some g => Ok (Some (mkG l' (gt_children g)))
                          end
                      end
                  end;
                if ceqb c "("%char then
                  parse_loop fuel' rest
                    (mkP (gt :: p_stack st) (Some (mkG [] [])) (Some []) None)
                else
                  match p_stack st with
                  | [] => Err ValueError                (* pop from empty list *)
                  | parent :: stack' =>
                      match parent, gt with
                      | None, Some v => Ok (CT (gt_sequence v) (gt_children v), rest)
                      | None, None => Err AttributeError
                      | Some _, None => Err AttributeError
                      | Some g, Some v =>
                          parse_loop fuel' rest
                            (mkP stack'
                                 (Some (mkG (gt_sequence g)
                                            (gt_children g ++ [CT (gt_sequence v) (gt_children v)])))
                                 None None)
                      end
                  end
          | TokI ident =>
              let (vals, rest') := span_values rest in
              match rest' with
              | [] => Err ValueError                    (* IndexError -> ValueError *)
              | _ :: _ =>
                  match vals with
                  | [] => Err ValueError                (* property with no values *)
                  | _ :: _ =>
                      match p_props st with
                      | None => Err ValueError          (* property value outside a node *)
                      | Some m =>
                          parse_loop fuel' rest'
                            (mkP (p_stack st) (p_tree st) (p_seq st)
                                 (Some (add_values ident vals m)))
                      end
                  end
              end
          end
      end
  end.

(** sgf_grammar.py:144-206 [_parse_sgf_game], including the final assertion. *)
Definition parse_sgf_game_at (s : bytes) : res (option (ctree * bytes)) :=
  do (ts, tl) <- tokenise s;
  match ts with
  | [] => Ok None
  | _ :: _ =>
      do (t, rest) <- parse_loop (List.length ts) ts (mkP [] None None None);
      match rest with
      | [] => Ok (Some (t, tl))
      | _ :: _ => Err AssertionError
      end
  end.

(** sgf_grammar.py:208-231 [parse_sgf_game]. *)
Definition parse_sgf_game (s : bytes) : res ctree :=
  do r <- parse_sgf_game_at s;
  match r with
  | None => Err ValueError
  | Some (t, _) => Ok t
  end.

(** sgf_grammar.py:234-263 [parse_sgf_collection] (an inner ValueError is re-raised as
    ValueError). *)
Fixpoint collection_loop (fuel : nat) (s : bytes) (acc : list ctree) : res (list ctree) :=
  match parse_sgf_game_at s with
  | Err e => Err e
  | Ok None => match acc with [] => Err ValueError | _ :: _ => Ok acc end
  | Ok (Some (t, tl)) =>
      match fuel with
      | O => Err OutOfFuel
      | S fuel' => collection_loop fuel' tl (acc ++ [t])
      end
  end.

Definition parse_sgf_collection (s : bytes) : res (list ctree) :=
  collection_loop (List.length s) s [].

(** * Serialising *)

(** sgf_grammar.py:266-289 [block_format]: the loop collecting lines. *)
Fixpoint block_lines (width : Z) (pieces : list bytes) (lines : list bytes) (line : bytes)
  : list bytes :=
  match pieces with
  | [] => match line with [] => lines | _ :: _ => lines ++ [line] end
  | s :: rest =>
      if Z.of_nat (List.length line) + Z.of_nat (List.length s) >? width
      then block_lines width rest (lines ++ [line]) s
      else block_lines width rest lines (line ++ s)
  end.

Definition block_format (pieces : list bytes) (width : Z) : bytes :=
  join [char_lf] (block_lines width pieces [] []).

(** sgf_grammar.py:316-318: [sorted(properties.iteritems(), key=...)] with key
    [(-(ident=="FF"), ident)]; keys of a dict are distinct, so the order is total. *)
Definition key_ltb (a b : bytes) : bool :=
  let fa := bytes_eqb a (str "FF") in
  let fb := bytes_eqb b (str "FF") in
  if fa && negb fb then true
  else if fb && negb fa then false
  else bytes_ltb a b.

Fixpoint insert_prop (kv : bytes * list bytes) (m : pmap) : pmap :=
  match m with
  | [] => [kv]
  | kv' :: rest => if key_ltb (fst kv') (fst kv) then kv' :: insert_prop kv rest else kv :: m
  end.

Fixpoint sort_props (m : pmap) : pmap :=
  match m with
  | [] => []
  | kv :: rest => insert_prop kv (sort_props rest)
  end.

(** sgf_grammar.py:321-324: one string per property. *)
Definition prop_piece (kv : bytes * list bytes) : bytes :=
  fst kv ++ flat_map (fun v => char_lb :: v ++ [char_rb]) (snd kv).

(** sgf_grammar.py:313-324: the pieces of one node. *)
Definition node_pieces (m : pmap) : list bytes := [";"%char] :: map prop_piece (sort_props m).

(** sgf_grammar.py:303-326: the explicit-stack loop ([list.pop] takes the last
    element; the stack is kept top-first here, so [extend(reversed(children))] after
    [append(None)] pushes the children in order on top of None). *)
Fixpoint serialise_loop (fuel : nat) (stack : list (option ctree)) (l : list bytes)
  : res (list bytes) :=
  match stack with
  | [] => Ok l
  | x :: stack' =>
      match fuel with
      | O => Err OutOfFuel
      | S fuel' =>
          match x with
          | None => serialise_loop fuel' stack' (l ++ [[")"%char]])
          | Some (CT sq ch) =>
              serialise_loop fuel' (map Some ch ++ None :: stack')
                (l ++ [["("%char]] ++ flat_map node_pieces sq)
          end
      end
  end.

(** Number of coarse trees in a tree (used as fuel only). *)
Fixpoint ctree_size (t : ctree) : nat :=
  match t with CT _ ch => S (fold_right (fun x n => (ctree_size x + n)%nat) O ch) end.

(** sgf_grammar.py:291-330 [serialise_game_tree]; [wrap = None] is Python's None. *)
Definition serialise_game_tree (t : ctree) (wrap : option Z) : res bytes :=
  do l <- serialise_loop (2 * ctree_size t) [Some t] [];
  let l' := l ++ [[char_lf]] in
  Ok (match wrap with
      | None => List.concat l'
      | Some w => block_format l' w
      end).

(** * Text values *)

(** sgf_grammar.py:448 [_newline_re.sub("\n", s)]. *)
Fixpoint normalise_newlines (s : bytes) : bytes :=
  match s with
  | [] => []
  | c :: rest =>
      if ceqb c char_lf then
        match rest with
        | d :: rest' => if ceqb d char_cr then char_lf :: normalise_newlines rest'
                        else char_lf :: normalise_newlines rest
        | [] => [char_lf]
        end
      else if ceqb c char_cr then
        match rest with
        | d :: rest' => if ceqb d char_lf then char_lf :: normalise_newlines rest'
                        else char_lf :: normalise_newlines rest
        | [] => [char_lf]
        end
      else c :: normalise_newlines rest
  end.

(** sgf_grammar.py:449 [s.translate(_whitespace_table)]. *)
Definition translate_space (c : ascii) : ascii :=
  if ceqb c char_tab || ceqb c char_ff || ceqb c char_vt then char_sp else c.

(** sgf_grammar.py:450 [_chunk_re.findall(s)]: maximal runs without newline or
    backslash, and single newlines / backslashes. *)
Definition is_break (c : ascii) : bool := ceqb c char_lf || ceqb c char_bs.

Fixpoint chunks (s : bytes) : list bytes :=
  match s with
  | [] => []
  | c :: rest =>
      if is_break c then [c] :: chunks rest
      else match rest with
           | d :: _ => if is_break d then [c] :: chunks rest
                       else match chunks rest with
                            | [] => [[c]]
                            | h :: t => (c :: h) :: t
                            end
           | [] => [[c]]
           end
  end.

(** sgf_grammar.py:469-481: the loop of [simpletext_value]. *)
Fixpoint simpletext_loop (escaped : bool) (cs : list bytes) : bytes :=
  match cs with
  | [] => []
  | c :: rest =>
      if escaped then
        (if bytes_eqb c [char_lf] then [] else c) ++ simpletext_loop false rest
      else if bytes_eqb c [char_bs] then simpletext_loop true rest
      else if bytes_eqb c [char_lf] then char_sp :: simpletext_loop false rest
      else c ++ simpletext_loop false rest
  end.

Definition simpletext_value (s : bytes) : bytes :=
  simpletext_loop false (chunks (map translate_space (normalise_newlines s))).

(** sgf_grammar.py:496-508: the loop of [text_value]. *)
Fixpoint text_loop (escaped : bool) (cs : list bytes) : bytes :=
  match cs with
  | [] => []
  | c :: rest =>
      if escaped then
        (if bytes_eqb c [char_lf] then [] else c) ++ text_loop false rest
      else if bytes_eqb c [char_bs] then text_loop true rest
      else c ++ text_loop false rest
  end.

Definition text_value (s : bytes) : bytes :=
  text_loop false (chunks (map translate_space (normalise_newlines s))).

(** [s.replace(c, r)] for a single character [c]. *)
Definition replace_char (c : ascii) (r : bytes) (s : bytes) : bytes :=
  flat_map (fun x => if ceqb x c then r else [x]) s.

(** sgf_grammar.py:511-523 [escape_text]. *)
Definition escape_text (s : bytes) : bytes :=
  replace_char char_rb [char_bs; char_rb] (replace_char char_bs [char_bs; char_bs] s).

(** * Compose *)

(** sgf_grammar.py:416-436 [parse_compose]: split at the first unescaped colon. *)
Fixpoint split_compose (s : bytes) : option (bytes * bytes) :=
  match s with
  | [] => None
  | c :: rest =>
      if ceqb c char_colon then Some ([], rest)
      else if ceqb c char_bs then
        match rest with
        | [] => None
        | d :: rest' =>
            match split_compose rest' with
            | Some (a, b) => Some (c :: d :: a, b)
            | None => None
            end
        end
      else match split_compose rest with
           | Some (a, b) => Some (c :: a, b)
           | None => None
           end
  end.

Definition parse_compose (s : bytes) : bytes * option bytes :=
  match split_compose s with
  | None => (s, None)
  | Some (a, b) => (a, Some b)
  end.

(** sgf_grammar.py:438-446 [compose]. *)
Definition compose (s1 s2 : bytes) : bytes :=
  replace_char char_colon [char_bs; char_colon] s1 ++ [char_colon] ++ s2.

(** * Main line *)

(** sgf_grammar.py:397-413 [main_sequence_iter], as the list it yields. *)
Fixpoint main_sequence (t : ctree) : list pmap :=
  match t with
  | CT sq ch => sq ++ match ch with [] => [] | c :: _ => main_sequence c end
  end.
