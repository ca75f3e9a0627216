(** Model of the character set handling of gomill/sgf.py: loading a game under the encoding
    its CA property names, and writing it in the encoding CA names. *)
From Verif Require Import Base Bytes PyStr Dict SgfGrammarModel SgfTreeConvModel SgfPropsModel
  SgfTreeModel.

(** Python's codec registry, as far as the model knows it: which of the modelled codecs a
    name stands for ([None]: [codecs.lookup] raises LookupError).  A parameter of the
    functions below; codecs other than the three of [encoding] are not modelled. *)
Definition registry : Type := bytes -> option encoding.

(** [codecs.lookup(s).name] of the modelled codecs (Python 2). *)
Definition codec_name (e : encoding) : bytes :=
  match e with UTF_8 => str "utf-8" | ISO_8859_1 => str "iso8859-1" | ASCII => str "ascii" end.

Definition upper_char (c : ascii) : ascii := if is_lower c then chr (ord c - 32) else c.

(** [s.replace(old, new)], [old] not empty. *)
Fixpoint starts_with (p s : bytes) : option bytes :=
  match p, s with
  | [], _ => Some s
  | a :: p', b :: s' => if ceqb a b then starts_with p' s' else None
  | _ :: _, [] => None
  end.
Fixpoint replace_all (fuel : nat) (old new s : bytes) : bytes :=
  match fuel with
  | O => s
  | S f => match starts_with old s with
           | Some r => new ++ replace_all f old new r
           | None => match s with [] => [] | c :: r => c :: replace_all f old new r end
           end
  end.
Definition py_replace (old new s : bytes) : bytes := replace_all (S (List.length s)) old new s.

(** What [normalise_charset_name] does with the name.  [codecs.lookup] rejects a name with
    a NUL in it with TypeError. *)
Inductive charset : Type := Charset (name : bytes) | UnknownCharset | NulInName.

(** sgf_properties.py:16-25 [normalise_charset_name]. *)
Definition normalise_charset_name (reg : registry) (s : bytes) : charset :=
  if existsb (fun c => ord c =? 0) s then NulInName
  else match reg s with
       | None => UnknownCharset
       | Some e => Charset (py_replace (str "ISO8859") (str "ISO-8859")
                             (map upper_char (py_replace (str "_") (str "-") (codec_name e))))
       end.

(** sgf.py:722-737 [get_charset].  (A CA property registered under another type can give a
    value that isn't a string, which [codecs.lookup] refuses with TypeError.) *)
Definition get_charset (reg : registry) (w : world) (g : game) : res bytes :=
  match get_prop w (g_root g) (str "CA") with
  | Err KeyError => Ok (str "ISO-8859-1")
  | Err e => Err e
  | Ok (VText s) => match normalise_charset_name reg s with
                    | Charset n => Ok n
                    | UnknownCharset => Err ValueError
                    | NulInName => Err TypeError
                    end
  | Ok _ => Err TypeError
  end.

(** The result of [serialise]: UnicodeDecodeError and UnicodeEncodeError are kinds of
    ValueError, kept apart here. *)
Inductive saved : Type :=
| Saved (text : bytes)
| UnicodeDecodeError
| UnicodeEncodeError
| NotSaved (e : exn).

(** sgf.py:35-41 [get_encoding]. *)
Definition game_encoding (g : game) : encoding := c_encoding (pr_context (g_pres g)).

(** sgf.py:584-619 [serialise].  ([s.decode(name)] of a name the registry doesn't know is
    LookupError, which does not arise: the names are normalised ones.) *)
Definition save_game (reg : registry) (w : world) (g : game) (wrap : option Z) : saved :=
  match get_charset reg w g with
  | Err e => NotSaved e
  | Ok target =>
      match serialise_game w g wrap with
      | Err e => NotSaved e
      | Ok text =>
          let raw := encoding_name (game_encoding g) in
          if bytes_eqb target raw then Saved text
          else match reg raw, reg target with
               | Some e1, Some e2 =>
                   match py_decode e1 text with
                   | Err _ => UnicodeDecodeError
                   | Ok u => match py_encode e2 u with
                             | Err _ => UnicodeEncodeError
                             | Ok s => Saved s
                             end
                   end
               | _, _ => NotSaved (OtherError 0)
               end
      end
  end.

(** sgf_properties.py:603-610 [Presenter(size, encoding)], the encoding part. *)
Definition presenter_encoding (reg : registry) (name : bytes) : res encoding :=
  if existsb (fun c => ord c =? 0) name then Err TypeError
  else match reg name with None => Err ValueError | Some e => Ok e end.

(** sgf.py:556-562: the encoding name the loaded data is read under. *)
Definition declared_charset (m : pmap) (override : option bytes) : res bytes :=
  match override with
  | Some n => Ok n
  | None => match dget (str "CA") m with
            | None => Ok (str "ISO-8859-1")
            | Some [] => Err IndexError
            | Some (v :: _) => Ok v
            end
  end.

(** sgf.py:528-583 [from_string], with the encoding looked up.  (The board size is checked
    first, but fails with the same exception, and nothing is created in either case.) *)
Definition from_string (reg : registry) (w : world) (s : bytes) (override : option bytes) : outcome :=
  match parse_sgf_game s with
  | Err ex => raise w ex
  | Ok t =>
      match c_sequence t with
      | [] => raise w IndexError
      | m :: _ =>
          match (do name <- declared_charset m override; presenter_encoding reg name) with
          | Ok e => load_game w t e (match override with Some _ => true | None => false end)
          | Err ex =>
              (* the size is checked before the encoding *)
              match (match dget (str "SZ") m with
                     | None => Ok 19
                     | Some [] => Err IndexError
                     | Some (v :: _) => py_int v
                     end) with
              | Err ex' => raise w ex'
              | Ok size => if negb ((1 <=? size) && (size <=? 26)) then raise w ValueError else raise w ex
              end
          end
      end
  end.
