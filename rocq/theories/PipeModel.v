(** Model of gomill/gtp_controller.py:232-461: a controller's channel to any program (not
    necessarily one that speaks GTP), through pipes.

    What the program sends is any byte string, after which the program closes its output, or
    sends nothing more, or reading fails. *)
From Verif Require Import Base Bytes PyStr GtpModel.
Open Scope Z_scope.

(** What comes after the bytes that the program sends. *)
Inductive ending : Type :=
| Eof                    (* end-of-file *)
| Silence                (* nothing: reading waits for ever *)
| Broken (text : bytes). (* reading raises EnvironmentError *)

Inductive failure : Type :=
| Closed (text : bytes)      (* GtpChannelClosed *)
| Protocol (text : bytes)    (* GtpProtocolError *)
| Transport (text : bytes)   (* GtpTransportError *)
| Start (text : bytes)       (* GtpChannelError *)
| Waits.                     (* (waits for ever) *)

Inductive outcome : Type := Got (is_error : bool) (response : bytes) | Failed (f : failure).

(** gtp_controller.py:424-428 [get_response_line], with the bytes that are left. *)
Definition get_response_line (e : ending) (s : bytes) : (bytes * bytes) + failure :=
  let (l, rest) := readline s in
  if ends_with_lf l then inl (l, rest)
  else match e with
       | Eof => inl (l, rest)
       | Silence => inr Waits
       | Broken t => inr (Transport t)
       end.

(** gtp_controller.py:430-434 [get_response_byte]. *)
Definition get_response_byte (e : ending) (s : bytes) : (bytes * bytes) + failure :=
  match s with
  | c :: r => inl ([c], r)
  | [] => match e with Eof => inl ([], []) | Silence => inr Waits | Broken t => inr (Transport t) end
  end.

(** gtp_controller.py:58 [_remove_response_controls_re], and its use in :300. *)
Definition without_controls (s : bytes) : bytes := filter (fun c => negb (is_response_control c)) s.

(** gtp_controller.py:292-315: the loop; [lines] is accumulated in order. *)
Fixpoint read_lines (fuel : nat) (e : ending) (seen_data : bool) (peeked : bytes) (lines : list bytes) (s : bytes)
  : (list bytes * bytes) + failure :=
  match fuel with
  | O => inr Waits
  | S f =>
      match get_response_line e s with
      | inr x => inr x
      | inl (l, rest) =>
          let s1 := without_controls (peeked ++ l) in
          if negb seen_data && bytes_eqb (strip s1) [] then
            if ends_with_lf s1 then read_lines f e seen_data [] lines rest
            else inl (lines, rest)
          else if bytes_eqb s1 [char_lf] then inl (lines, rest)
          else if ends_with_lf s1 then read_lines f e true [] (lines ++ [s1]) rest
          else inl (lines ++ [s1], rest)
      end
  end.

(** Python's [repr] of a string of one character. *)
Definition hex_digit (n : Z) : ascii := chr (if n <? 10 then 48 + n else 87 + n).
Definition repr_char (c : ascii) : bytes :=
  let n := ord c in
  if n =? 39 then str """'"""
  else str "'" ++
       (if n =? 92 then str "\\"
        else if n =? 9 then str "\t"
        else if n =? 10 then str "\n"
        else if n =? 13 then str "\r"
        else if (32 <=? n) && (n <=? 126) then [c]
        else str "\x" ++ [hex_digit (n / 16); hex_digit (n mod 16)]) ++ str "'".

Definition closed_text : bytes := str "engine has closed the response channel".

(** gtp_controller.py:267-291: the first byte. *)
Definition look_at_first_byte (e : ending) (s : bytes) : (bytes * bytes) + failure * bytes :=
  match get_response_byte e s with
  | inr x => inr (x, [])
  | inl (b, rest) =>
      match b with
      | [] => inr (Closed closed_text, rest)
      | c :: _ =>
          if ceqb c (chr 1) then inr (Protocol (str "engine appears to be speaking GMP, not GTP!"), rest)
          else if negb (existsb (ceqb c) [char_sp; char_tab; char_cr; char_lf; "#"%char; "="%char; "?"%char])
          then inr (Protocol (str "engine isn't speaking GTP: first byte is " ++ repr_char c), rest)
          else if ceqb c char_lf then inl ([], rest)
          else inl (b, rest)
      end
  end.

(** gtp_controller.py:316-333: interpreting the lines. *)
Definition interpret (lines : list bytes) : outcome :=
  match lines with
  | [] => Failed (Closed closed_text)
  | first_line :: rest =>
      match first_line with
      | [] => Failed (Start (str "IndexError"))    (* first_line[0]; it's certain that it isn't empty *)
      | c :: r =>
          if ceqb c "?"%char || ceqb c "="%char
          then Got (ceqb c "?"%char) (tabs_to_spaces (rstrip (List.concat (lstrip_blank r :: rest))))
          else Failed (Protocol (str "no success/failure indication from engine: first line is `" ++ rstrip first_line ++ str "`"))
      end
  end.

(** A channel: is_first_response, and the bytes that have not been read.  After a failure to read,
    the bytes that had been read are lost. *)
Record channel : Type := mkChan { c_first : bool; c_unread : bytes }.

(** gtp_controller.py:235-237 [__init__]. *)
Definition new_channel (s : bytes) : channel := mkChan true s.

(** gtp_controller.py:250-333 [get_response_impl]. *)
Definition get_response (e : ending) (ch : channel) : channel * outcome :=
  let go peeked s :=
    match read_lines (S (List.length s)) e false peeked [] s with
    | inr x => (mkChan false [], Failed x)
    | inl (lines, rest) => (mkChan false rest, interpret lines)
    end in
  if c_first ch then
    match look_at_first_byte e (c_unread ch) with
    | inr (x, rest) => (mkChan false rest, Failed x)
    | inl (peeked, rest) => go peeked rest
    end
  else go [] (c_unread ch).

(** Successive responses. *)
Fixpoint responses (n : nat) (e : ending) (ch : channel) : list outcome :=
  match n with
  | O => []
  | S m => let '(ch', o) := get_response e ch in o :: responses m e ch'
  end.

(** ** The process *)

(** What a system call does: nothing special, or EnvironmentError with a text (and whether its errno is EPIPE). *)
Inductive sysresult : Type := Fine | Fails_ (text : bytes) (epipe : bool).

(** gtp_controller.py:393-405 [Subprocess_gtp_channel.__init__]. *)
Definition start_process (popen : sysresult) : option failure :=
  match popen with Fine => None | Fails_ t _ => Some (Start t) end.

(** gtp_controller.py:246-248 [send_command_impl] and :414-422 [send_command_line]; [write] is the
    result of writing and flushing.  The line, and the error. *)
Definition send_command (write : sysresult) (command : bytes) (arguments : list bytes) : bytes * option failure :=
  (join [char_sp] (command :: arguments) ++ [char_lf],
   match write with
   | Fine => None
   | Fails_ t true => Some (Closed (str "engine has closed the command channel"))
   | Fails_ t false => Some (Transport t)
   end).

(** gtp_controller.py:436-461 [close]: what is done, the exit status that is known afterwards
    ([wait] gives it), and the error. *)
Inductive closing : Type := ClosedCommandPipe | ClosedResponsePipe | Waited.
Definition close (command_pipe response_pipe : sysresult) (wait : Z + bytes) : list closing * option Z * option failure :=
  let errors :=
    (match command_pipe with Fine => [] | Fails_ t _ => [str "error closing command pipe:" ++ [char_lf] ++ t] end) ++
    (match response_pipe with Fine => [] | Fails_ t _ => [str "error closing response pipe:" ++ [char_lf] ++ t; t] end) ++
    (match wait with inl _ => [] | inr t => [t] end) in
  ([ClosedCommandPipe; ClosedResponsePipe; Waited],
   match wait with inl status => Some status | inr _ => None end,
   match errors with [] => None | _ => Some (Transport (join [char_lf] errors)) end).
