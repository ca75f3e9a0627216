(** Model of gomill/gtp_engine.py (the engine side of GTP) and of the channels of
    gomill/gtp_controller.py (the controller side). *)
From Verif Require Import Base Bytes PyStr Dict CommonModel SgfPropsModel.

(** ** Outcomes of command handlers *)

(** gtp_engine.py:18-25: what a handler (or a helper it calls) can do: return, raise
    GtpError, GtpFatalError or GtpQuit with a message, or raise any other exception (the
    model keeps the exception's traceback text, compact_tracebacks.py not being modelled). *)
Inductive gres (A : Type) : Type :=
| GOk (a : A)
| GError (msg : bytes)
| GFatal (msg : bytes)
| GQuit (msg : bytes)
| GRaise (traceback : bytes).
Arguments GOk {A} a.
Arguments GError {A} msg.
Arguments GFatal {A} msg.
Arguments GQuit {A} msg.
Arguments GRaise {A} traceback.

Definition gbind {A B} (m : gres A) (f : A -> gres B) : gres B :=
  match m with
  | GOk a => f a
  | GError s => GError s | GFatal s => GFatal s | GQuit s => GQuit s | GRaise s => GRaise s
  end.

(** ** Handler support *)

(** gtp_engine.py:32-44. *)
Definition interpret_boolean (arg : bytes) : gres bool :=
  if bytes_eqb arg (str "true") then GOk true
  else if bytes_eqb arg (str "false") then GOk false
  else GError (str "invalid boolean: '" ++ arg ++ str "'").

(** gtp_engine.py:46-58. *)
Definition interpret_colour (arg : bytes) : gres colour :=
  let s := map lower_char arg in
  if bytes_eqb s (str "w") || bytes_eqb s (str "white") then GOk White
  else if bytes_eqb s (str "b") || bytes_eqb s (str "black") then GOk Black
  else GError (str "invalid colour: '" ++ arg ++ str "'").

(** gtp_engine.py:60-73.  Simplification: one message for every kind of bad vertex. *)
Definition interpret_vertex (arg : bytes) (board_size : Z) : gres gmove :=
  match move_from_vertex arg board_size with
  | Ok m => GOk m
  | Err _ => GError (str "invalid vertex: '" ++ map lower_char arg ++ str "'")
  end.

(** gtp_engine.py:76. *)
Definition gtp_int_max : Z := 2 ^ 31 - 1.

(** gtp_engine.py:78-102. *)
Definition interpret_int (arg : bytes) : gres Z :=
  match py_int arg with
  | Ok n => GOk (if n <? 0 then -1 else if gtp_int_max <? n then gtp_int_max else n)
  | Err _ => GError (str "invalid int: '" ++ arg ++ str "'")
  end.

(** gtp_engine.py:103-121.  [float(arg)] is [py_float] (an exact decimal); literals too large
    for binary64 are infinite, and "inf" and "nan" are refused by both. *)
Definition interpret_float (arg : bytes) : gres (Z * nat) :=
  match interpret_real arg with
  | Ok f => GOk f
  | Err _ => GError (str "invalid float: '" ++ arg ++ str "'")
  end.

(** gtp_engine.py:123-128. *)
Definition format_gtp_boolean (b : bool) : bytes := if b then str "true" else str "false".

(** gtp_engine.py:130-139. *)
Definition report_bad_arguments {A} : gres A := GError (str "invalid arguments").

(** ** Parsing *)

(** gtp_engine.py:144: the class [\x00-\x08\x0a-\x1f\x7f]. *)
Definition is_control (c : ascii) : bool :=
  (ord c <=? 8) || ((10 <=? ord c) && (ord c <=? 31)) || (ord c =? 127).

(** gtp_engine.py:145, gtp_controller.py:58: the class [\x00-\x08\x0b-\x1f\x7f]. *)
Definition is_response_control (c : ascii) : bool :=
  (ord c <=? 8) || ((11 <=? ord c) && (ord c <=? 31)) || (ord c =? 127).

Definition is_blank (c : ascii) : bool := (ord c =? 9) || (ord c =? 32).

(** [s.partition("#")[0]]. *)
Fixpoint before_hash (s : bytes) : bytes :=
  match s with
  | [] => []
  | c :: r => if ceqb c "#"%char then [] else c :: before_hash r
  end.

(** gtp_engine.py:146: [re.sub(r"[\x09\x20]+", " ", s)]; [inside] says that the previous
    character belonged to the current run. *)
Fixpoint normalise_blanks (inside : bool) (s : bytes) : bytes :=
  match s with
  | [] => []
  | c :: r =>
      if is_blank c then (if inside then [] else [char_sp]) ++ normalise_blanks true r
      else c :: normalise_blanks false r
  end.

(** gtp_engine.py:149-154. *)
Definition preprocess_line (s : bytes) : bytes :=
  normalise_blanks false (filter (fun c => negb (is_control c)) (before_hash s)).

(** [s.rstrip()]. *)
Definition rstrip (s : bytes) : bytes := rev (lstrip (rev s)).

(** [s.replace("\n\n", "\n.\n")]: non-overlapping occurrences from the left. *)
Fixpoint replace_blank_lines (s : bytes) : bytes :=
  match s with
  | [] => []
  | a :: r =>
      match r with
      | b :: r' =>
          if ceqb a char_lf && ceqb b char_lf
          then char_lf :: "."%char :: char_lf :: replace_blank_lines r'
          else a :: replace_blank_lines r
      | [] => [a]
      end
  end.

Definition tabs_to_spaces (s : bytes) : bytes :=
  map (fun c => if ceqb c char_tab then char_sp else c) s.

(** gtp_engine.py:156-168 [_clean_response], of a byte string ([None] and the conversions of
    other types to byte strings are left to the caller). *)
Definition clean_response (response : bytes) : bytes :=
  tabs_to_spaces
    (filter (fun c => negb (is_response_control c)) (replace_blank_lines (rstrip response))).

(** [s.split()]: the maximal runs of characters that aren't white space. *)
Fixpoint split_ws (s : bytes) : list bytes :=
  match s with
  | [] => []
  | c :: r =>
      if is_space c then split_ws r
      else match r with
           | [] => [[c]]
           | d :: _ =>
               if is_space d then [c] :: split_ws r
               else match split_ws r with
                    | w :: ws => (c :: w) :: ws
                    | [] => [[c]]
                    end
           end
  end.

(** gtp_engine.py:147: the match of [^-?[0-9]+], and what follows it. *)
Definition match_id (s : bytes) : option (bytes * bytes) :=
  match s with
  | c :: r =>
      if ceqb c "-"%char then
        match span_digits r with
        | ([], _) => None
        | (ds, rest) => Some (c :: ds, rest)
        end
      else
        match span_digits s with
        | ([], _) => None
        | (ds, rest) => Some (ds, rest)
        end
  | [] => None
  end.

(** gtp_engine.py:170-207 [_parse_line]: (command_id, command, arguments). *)
Definition parse_line (line : bytes) : res (option bytes * option bytes * list bytes) :=
  match split_ws line with
  | [] => Err IndexError
  | s :: rest =>
      match match_id s with
      | Some (id, command) =>
          let '(command, args) :=
            match command with
            | [] => match rest with
                    | [] => (None, [])
                    | w :: ws => (Some w, ws)
                    end
            | _ => (Some command, rest)
            end in
          do n <- py_int id;
          let id' := if n <? 0 then None
                     else if gtp_int_max <? n then Some (str_int gtp_int_max)
                     else Some id in
          Ok (id', command, args)
      | None => Ok (None, Some s, rest)
      end
  end.

(** ** The engine *)

Section Engine.
(** The state of the program that implements the engine. *)
Context {S : Type}.

(** gtp_engine.py:210-250: a handler function takes the arguments and may change the state;
    its result is [None] or a byte string.  The four protocol handlers of
    gtp_engine.py:385-421 read the engine's own command table. *)
Inductive handler : Type :=
| User (f : S -> list bytes -> S * gres (option bytes))
| Known_command
| List_commands
| Protocol_version
| Quit.

(** gtp_engine.py:244-250. *)
Record engine : Type := mkEngine {
  e_handlers : dict handler;
  e_fatal : bool                  (* handler_exceptions_are_fatal *)
}.

Definition new_engine : engine := mkEngine [] false.

(** gtp_engine.py:248-250. *)
Definition set_handler_exceptions_fatal (e : engine) (b : bool) : engine :=
  mkEngine (e_handlers e) b.

(** gtp_engine.py:252-254. *)
Definition add_command (e : engine) (name : bytes) (h : handler) : engine :=
  mkEngine (dset name h (e_handlers e)) (e_fatal e).

(** gtp_engine.py:264-273. *)
Definition remove_command (e : engine) (name : bytes) : engine :=
  mkEngine (ddel name (e_handlers e)) (e_fatal e).

(** [sorted(l)] for byte strings. *)
Fixpoint insert_sorted (x : bytes) (l : list bytes) : list bytes :=
  match l with
  | [] => [x]
  | y :: r => if bytes_ltb y x then y :: insert_sorted x r else x :: y :: r
  end.
Definition sorted (l : list bytes) : list bytes := fold_right insert_sorted [] l.

(** gtp_engine.py:275-277. *)
Definition list_commands (e : engine) : list bytes := sorted (dkeys (e_handlers e)).

(** gtp_engine.py:405-421. *)
Definition add_protocol_commands (e : engine) : engine :=
  add_command (add_command (add_command (add_command e
    (str "known_command") Known_command)
    (str "list_commands") List_commands)
    (str "protocol_version") Protocol_version)
    (str "quit") Quit.

(** gtp_engine.py:385-403: calling a handler. *)
Definition call_handler (e : engine) (h : handler) (s : S) (args : list bytes)
  : S * gres (option bytes) :=
  match h with
  | User f => f s args
  | Known_command =>
      (s, GOk (Some (format_gtp_boolean
                       match args with [] => false | a :: _ => dmem a (e_handlers e) end)))
  | List_commands => (s, GOk (Some (join [char_lf] (list_commands e))))
  | Protocol_version => (s, GOk (Some (str "2")))
  | Quit => (s, GQuit [])
  end.

(** gtp_engine.py:279-293 [_do_command]. *)
Definition do_command (e : engine) (s : S) (command : bytes) (args : list bytes)
  : S * gres (option bytes) :=
  match dget command (e_handlers e) with
  | None => (s, GError (str "unknown command"))
  | Some h =>
      let (s', r) := call_handler e h s args in
      (s', match r with
           | GRaise tb =>
               if e_fatal e then GFatal (str "internal error; exiting" ++ char_lf :: tb)
               else GError (str "internal error" ++ char_lf :: tb)
           | _ => r
           end)
  end.

Definition or_default (s d : bytes) : bytes := match s with [] => d | _ => s end.

(** gtp_engine.py:295-338 [run_command]: (is_error, response, end_session). *)
Definition run_command (e : engine) (s : S) (command : bytes) (args : list bytes)
  : S * (bool * bytes * bool) :=
  let (s', r) := do_command e s command args in
  (s', match r with
       | GQuit m => (false, clean_response m, true)
       | GFatal m => (true, clean_response (or_default m (str "unspecified fatal error")), true)
       | GError m => (true, clean_response (or_default m (str "unspecified error")), false)
       | GRaise m => (true, m, false)            (* unreachable: see do_command *)
       | GOk None => (false, [], false)
       | GOk (Some t) => (false, clean_response t, false)
       end).

(** gtp_engine.py:340-381 [handle_line]: the response to send, if any, and end_session. *)
Definition handle_line (e : engine) (s : S) (line : bytes) : S * res (option bytes * bool) :=
  let normalised := preprocess_line line in
  if bytes_eqb normalised [] || bytes_eqb normalised [char_sp] then (s, Ok (None, false))
  else
    match parse_line normalised with
    | Err x => (s, Err x)
    | Ok (_, None, _) => (s, Ok (None, false))
    | Ok (command_id, Some command, args) =>
        let '(s', (is_error, cleaned, end_session)) := run_command e s command args in
        let code := if is_error then str "?" else str "=" in
        let prefix := match command_id with Some id => code ++ id | None => code end in
        let sep := match cleaned with [] => [] | _ => [char_sp] end in
        (s', Ok (Some (prefix ++ sep ++ cleaned ++ [char_lf; char_lf]), end_session))
    end.

(** File objects: [f.readline()] on the text that is still to come. *)
Fixpoint readline (s : bytes) : bytes * bytes :=
  match s with
  | [] => ([], [])
  | c :: r => if ceqb c char_lf then ([c], r)
              else let (l, rest) := readline r in (c :: l, rest)
  end.

(** gtp_engine.py:428-462 [run_gtp_session] on the whole of the text that the controller ever
    sends: the state afterwards, what has been written, and whether the engine ended the
    session (if not, it waits for more input, or the input has ended).  Writes succeed.
    [fuel] bounds the number of lines; [OutOfFuel] never happens when it is at least
    the length of the input. *)
Fixpoint session (fuel : nat) (e : engine) (s : S) (input : bytes) : S * bytes * res bool :=
  match fuel with
  | O => (s, [], Err OutOfFuel)
  | Datatypes.S f =>
      match readline input with
      | ([], _) => (s, [], Ok false)
      | (line, rest) =>
          match handle_line e s line with
          | (s', Err x) => (s', [], Err x)
          | (s', Ok (response, end_session)) =>
              let w := match response with Some t => t | None => [] end in
              if end_session then (s', w, Ok true)
              else let '(s'', w', r) := session f e s' rest in (s'', w ++ w', r)
          end
      end
  end.

Definition run_session (e : engine) (s : S) (input : bytes) : S * bytes * res bool :=
  session (Datatypes.S (List.length input)) e s input.

(** ** Channels *)

(** gtp_controller.py:17-32: GtpChannelClosed, GtpProtocolError, other GtpChannelErrors;
    and ValueError for a word that can't be sent.  [Blocked] is not an exception: it marks
    a read that waits for ever. *)
Inductive chan_error : Type :=
| Channel_closed | Protocol_error | Channel_error | Bad_word | Blocked.

Inductive reply : Type :=
| Reply (is_failure : bool) (text : bytes)
| Fails (x : chan_error).

(** gtp_controller.py:57-70 [is_well_formed_gtp_word] on a byte string. *)
Definition word_char (c : ascii) : bool :=
  ((33 <=? ord c) && (ord c <=? 126)) || (128 <=? ord c).
Definition is_well_formed_gtp_word (s : bytes) : bool :=
  match s with [] => false | _ => forallb word_char s end.

(** gtp_controller.py:121-140 [send_command]: the check on the words. *)
Definition sendable (command : bytes) (args : list bytes) : bool :=
  is_well_formed_gtp_word command && forallb is_well_formed_gtp_word args.

(** gtp_controller.py:202-234 [Internal_gtp_channel], together with its engine's state. *)
Record internal : Type := mkInternal {
  i_state : S;
  i_outstanding : list (bytes * list bytes);
  i_ended : bool
}.

Definition new_internal (s : S) : internal := mkInternal s [] false.

Definition internal_send (c : internal) (command : bytes) (args : list bytes)
  : internal * option chan_error :=
  if negb (sendable command args) then (c, Some Bad_word)
  else if i_ended c then (c, Some Channel_closed)
  else (mkInternal (i_state c) (i_outstanding c ++ [(command, args)]) (i_ended c), None).

Definition internal_get (e : engine) (c : internal) : internal * reply :=
  if i_ended c then (c, Fails Channel_closed)
  else match i_outstanding c with
       | [] => (c, Fails Channel_error)
       | (command, args) :: rest =>
           let '(s', (is_error, text, end_session)) := run_command e (i_state c) command args in
           (mkInternal s' rest (end_session || i_ended c), Reply is_error text)
       end.

(** gtp_controller.py:236-336 [Linebased_gtp_channel] connected by pipes to a process that
    runs [run_gtp_session].  Everything the process writes is determined by what has been
    sent to it, so the state of the connection is the text sent so far, the number of bytes
    of its output that the controller has read, and [is_first_response]. *)
Record linebased : Type := mkLine {
  l_sent : bytes;
  l_read : nat;
  l_first : bool
}.

Definition new_linebased : linebased := mkLine [] O true.

(** gtp_controller.py:246-248, 414-422 [send_command_impl] and [send_command_line].  Once the
    engine has gone, writing to it may fail with EPIPE, or succeed without effect: [broken]
    tells which (it has no effect while the engine is running). *)
Definition linebased_send (e : engine) (s0 : S) (broken : bool) (c : linebased)
    (command : bytes) (args : list bytes) : linebased * option chan_error :=
  if negb (sendable command args) then (c, Some Bad_word)
  else
    let line := join [char_sp] (command :: args) ++ [char_lf] in
    let ended := match snd (run_session e s0 (l_sent c)) with Ok b => b | Err _ => true end in
    if ended && broken then (c, Some Channel_closed)
    else (mkLine (l_sent c ++ line) (l_read c) (l_first c), None).

(** A pipe: [readline] waits until there is a newline or the writer has gone. *)
Definition pipe_readline (eof : bool) (s : bytes) : option (bytes * bytes) :=
  let (l, rest) := readline s in
  if (match rev l with c :: _ => ceqb c char_lf | [] => false end) || eof
  then Some (l, rest) else None.

Definition ends_with_lf (s : bytes) : bool :=
  match rev s with c :: _ => ceqb c char_lf | [] => false end.

(** gtp_controller.py:295-323: the loop that collects the lines of a response; returns them,
    and what remains to be read.  [None]: the loop waits for ever. *)
Fixpoint collect (fuel : nat) (eof seen_data : bool) (peeked : bytes) (s : bytes)
  : option (list bytes * bytes) :=
  match fuel with
  | O => None
  | Datatypes.S f =>
      match pipe_readline eof s with
      | None => None
      | Some (l, rest) =>
          let s1 := filter (fun c => negb (is_response_control c)) (peeked ++ l) in
          if negb seen_data && bytes_eqb (strip s1) [] then
            if ends_with_lf s1 then collect f eof false [] rest else Some ([], rest)
          else if bytes_eqb s1 [char_lf] then Some ([], rest)
          else if ends_with_lf s1 then
            match collect f eof true [] rest with
            | None => None
            | Some (ls, rest') => Some (s1 :: ls, rest')
            end
          else Some ([s1], rest)
      end
  end.

(** [s.lstrip(" \t")]. *)
Fixpoint lstrip_blank (s : bytes) : bytes :=
  match s with [] => [] | c :: r => if is_blank c then lstrip_blank r else s end.

(** gtp_controller.py:324-336: interpreting the lines. *)
Definition interpret_lines (lines : list bytes) : reply :=
  match lines with
  | [] => Fails Channel_closed
  | [] :: _ => Fails Protocol_error          (* the first line is never empty *)
  | (c :: r) :: ls =>
      if ceqb c "?"%char || ceqb c "="%char then
        Reply (ceqb c "?"%char)
              (tabs_to_spaces (rstrip (List.concat (lstrip_blank r :: ls))))
      else Fails Protocol_error
  end.

(** gtp_controller.py:275-294: looking at the first byte ([peeks] says whether the channel
    implements [get_response_byte]).  Either an error, or the byte to put back and the rest. *)
Definition peek (eof : bool) (s : bytes) : (bytes * bytes) + chan_error :=
  match s with
  | [] => inr (if eof then Channel_closed else Blocked)
  | c :: r =>
      if existsb (ceqb c) (str " #=?" ++ [char_tab; char_cr; char_lf]) then
        inl (if ceqb c char_lf then [] else [c], r)
      else inr Protocol_error
  end.

(** gtp_controller.py:250-336 [get_response_impl].  (When the read waits for ever, the
    position is left unchanged.) *)
Definition linebased_get (e : engine) (s0 : S) (peeks : bool) (c : linebased)
  : linebased * reply :=
  let '(_, out, r) := run_session e s0 (l_sent c) in
  let eof := match r with Ok b => b | Err _ => true end in
  let todo := skipn (l_read c) out in
  match (if l_first c && peeks then peek eof todo else inl ([], todo)) with
  | inr x => (mkLine (l_sent c) (match x with Protocol_error => Datatypes.S (l_read c) | _ => l_read c end)
                     (match x with Blocked => l_first c | _ => false end), Fails x)
  | inl (peeked, todo') =>
      match collect (Datatypes.S (List.length todo')) eof false peeked todo' with
      | None => (c, Fails Blocked)
      | Some (lines, rest) =>
          (mkLine (l_sent c) (List.length out - List.length rest) false, interpret_lines lines)
      end
  end.

End Engine.
Arguments handler S : clear implicits.
Arguments engine S : clear implicits.
Arguments internal S : clear implicits.
