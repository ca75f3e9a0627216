(** Model of gomill/gtp_controller.py:465-768 (Gtp_controller): the controller's side of one
    GTP connection, over an arbitrary channel. *)
From Verif Require Import Base Bytes PyStr Dict CommonModel SgfPropsModel GtpModel.

(** ** Channels and exceptions *)

(** gtp_controller.py:17-32: the subclasses of GtpChannelError. *)
Inductive chan_kind : Type := KClosed | KProtocol | KTransport | KChannel.

(** What a channel's methods can raise: a GtpChannelError with its text, or something else
    (for example ValueError from [send_command] for an ill-formed word). *)
Inductive chan_exc : Type :=
| XChan (k : chan_kind) (text : bytes)
| XOther (e : exn).

(** gtp_controller.py:72-199 Gtp_channel: an arbitrary program (with its engine) with its own
    state, which may answer each call in any way. *)
Record channel (X : Type) : Type := mkChannel {
  ch_send : X -> bytes -> list bytes -> X * option chan_exc;
  ch_get : X -> X * ((bool * bytes) + chan_exc);
  ch_close : X -> X * option chan_exc
}.
Arguments ch_send {X}. Arguments ch_get {X}. Arguments ch_close {X}.

(** gtp_controller.py:35-53: the attributes of a BadGtpResponse that stands for a failure
    response: gtp_command, gtp_arguments, gtp_error_message. *)
Definition gtp_failure : Type := (bytes * list bytes * bytes)%type.

(** What a call on a controller can do. *)
Inductive cres (A : Type) : Type :=
| CRet (a : A)
| CBad (msg : bytes) (gtp : option gtp_failure)     (* raises BadGtpResponse *)
| CChan (k : chan_kind) (msg : bytes)               (* raises a GtpChannelError *)
| CExn (e : exn).                                   (* raises another exception *)
Arguments CRet {A} a.
Arguments CBad {A} msg gtp.
Arguments CChan {A} k msg.
Arguments CExn {A} e.

(** StandardError("channel is closed"), which is outside the exceptions named in [exn]. *)
Definition standard_error : exn := OtherError 0.

(** ** Gtp_controller *)

Section Controller.
Context {X : Type}.
Variable ch : channel X.

(** gtp_controller.py:482-491: the attributes (log_dest is not used). *)
Record controller : Type := mkCtl {
  c_chan : X;
  c_name : bytes;
  c_known : dict bool;
  c_aliases : dict bytes;
  c_first : bool;
  c_errors : list bytes;
  c_closed : bool;
  c_bad : bool
}.

(** gtp_controller.py:482-491. *)
Definition new_controller (x : X) (name : bytes) : controller :=
  mkCtl x name [] [] true [] false false.

Definition with_chan (x : X) (c : controller) : controller :=
  mkCtl x (c_name c) (c_known c) (c_aliases c) (c_first c) (c_errors c) (c_closed c) (c_bad c).
Definition with_known (k : dict bool) (c : controller) : controller :=
  mkCtl (c_chan c) (c_name c) k (c_aliases c) (c_first c) (c_errors c) (c_closed c) (c_bad c).
Definition not_first (c : controller) : controller :=
  mkCtl (c_chan c) (c_name c) (c_known c) (c_aliases c) false (c_errors c) (c_closed c) (c_bad c).
Definition add_error (m : bytes) (c : controller) : controller :=
  mkCtl (c_chan c) (c_name c) (c_known c) (c_aliases c) (c_first c) (c_errors c ++ [m]) (c_closed c) (c_bad c).
Definition set_closed (c : controller) : controller :=
  mkCtl (c_chan c) (c_name c) (c_known c) (c_aliases c) (c_first c) (c_errors c) true (c_bad c).
Definition set_bad (c : controller) : controller :=
  mkCtl (c_chan c) (c_name c) (c_known c) (c_aliases c) (c_first c) (c_errors c) (c_closed c) true.

(** [self.gtp_aliases.get(command, command)]. *)
Definition translate (aliases : dict bytes) (command : bytes) : bytes :=
  match dget command aliases with Some c => c | None => command end.

(** gtp_controller.py:555-560 [format_command]. *)
Definition format_command (first : bool) (command : bytes) (args : list bytes) : bytes :=
  let desc := join [char_sp] (command :: args) in
  if first then str "first command (" ++ desc ++ str ")" else str "'" ++ desc ++ str "'".

(** gtp_controller.py:569-574. *)
Definition error_label (k : chan_kind) : bytes :=
  match k with
  | KTransport => str "transport error"
  | KProtocol => str "GTP protocol error"
  | _ => str "error"
  end.

Definition colon_lf : bytes := str ":" ++ [char_lf].

(** gtp_controller.py:575-579. *)
Definition channel_message (sending : bool) (k : chan_kind) (cmd name text : bytes) : bytes :=
  if sending then error_label k ++ str " sending " ++ cmd ++ str " to " ++ name ++ colon_lf ++ text
  else error_label k ++ str " reading response to " ++ cmd ++ str " from " ++ name ++ colon_lf ++ text.

(** gtp_controller.py:581-586. *)
Definition failure_message (cmd name response : bytes) : bytes :=
  str "failure response from " ++ cmd ++ str " to " ++ name ++ colon_lf ++ response.

(** gtp_controller.py:493-587 [do_command].  Simplification: the command and the arguments are
    byte strings (a unicode object is encoded as UTF-8 first). *)
Definition do_command (c : controller) (command : bytes) (args : list bytes) : controller * cres bytes :=
  if c_closed c then (c, CExn standard_error)
  else
    let translated := translate (c_aliases c) command in
    let cmd := format_command (c_first c) translated args in
    let c1 := not_first c in
    match ch_send ch (c_chan c1) translated args with
    | (x, Some (XChan k text)) => (set_bad (with_chan x c1), CChan k (channel_message true k cmd (c_name c) text))
    | (x, Some (XOther e)) => (with_chan x c1, CExn e)
    | (x, None) =>
        match ch_get ch x with
        | (x', inr (XChan k text)) =>
            (set_bad (with_chan x' c1), CChan k (channel_message false k cmd (c_name c) text))
        | (x', inr (XOther e)) => (with_chan x' c1, CExn e)
        | (x', inl (true, response)) =>
            (with_chan x' c1, CBad (failure_message cmd (c_name c) response) (Some (translated, args, response)))
        | (x', inl (false, response)) => (with_chan x' c1, CRet response)
        end
    end.

(** gtp_controller.py:682-704 [safe_do_command]. *)
Definition safe_do_command (c : controller) (command : bytes) (args : list bytes) : controller * cres (option bytes) :=
  if c_bad c || c_closed c then (c, CRet None)
  else
    match do_command c command args with
    | (c', CRet r) => (c', CRet (Some r))
    | (c', CBad m g) => (c', CBad m g)
    | (c', CChan k m) => (add_error m c', CRet None)
    | (c', CExn e) => (c', CExn e)
    end.

(** [do_command] as a function that may return None, as [_known_command] sees it. *)
Definition plain_do_command (c : controller) (command : bytes) (args : list bytes) : controller * cres (option bytes) :=
  match do_command c command args with
  | (c', CRet r) => (c', CRet (Some r))
  | (c', CBad m g) => (c', CBad m g)
  | (c', CChan k m) => (c', CChan k m)
  | (c', CExn e) => (c', CExn e)
  end.

(** gtp_controller.py:589-602 [_known_command]. *)
Definition known_command_with
  (run : controller -> bytes -> list bytes -> controller * cres (option bytes))
  (c : controller) (command : bytes) : controller * cres bool :=
  match dget command (c_known c) with
  | Some b => (c, CRet b)
  | None =>
      let remember (c' : controller) (b : bool) := (with_known (dset command b (c_known c')) c', CRet b) in
      match run c (str "known_command") [translate (c_aliases c) command] with
      | (c', CBad _ _) => remember c' false
      | (c', CRet r) =>
          remember c' (match r with Some text => bytes_eqb text (str "true") | None => false end)
      | (c', CChan k m) => (c', CChan k m)
      | (c', CExn e) => (c', CExn e)
      end
  end.

(** gtp_controller.py:604-618 [known_command]. *)
Definition known_command := known_command_with plain_do_command.

(** gtp_controller.py:706-717 [safe_known_command]. *)
Definition safe_known_command := known_command_with safe_do_command.

(** [float(s) == 2.0] ("inf" and "nan" are not 2).  Simplification: the comparison is that of
    the decimal written, where Python also accepts decimals that round to 2.0. *)
Definition is_version_2 (s : bytes) : bool :=
  match py_float s with
  | Ok (m, k) => m =? 2 * 10 ^ Z.of_nat k
  | Err _ => false
  end.

(** gtp_controller.py:620-645 [check_protocol_version]. *)
Definition check_protocol_version (c : controller) : controller * cres unit :=
  match do_command c (str "protocol_version") [] with
  | (c', CBad _ _) => (c', CRet tt)
  | (c', CRet v) =>
      if is_version_2 v then (c', CRet tt)
      else (c', CBad (c_name c ++ str " reports GTP protocol version " ++ v) None)
  | (c', CChan k m) => (c', CChan k m)
  | (c', CExn e) => (c', CExn e)
  end.

(** gtp_controller.py:647-659 [list_commands]. *)
Definition list_commands (c : controller) : controller * cres (list bytes) :=
  match do_command c (str "list_commands") [] with
  | (c', CRet response) =>
      (c', CRet (filter is_well_formed_gtp_word (map strip (split_on char_lf response))))
  | (c', CBad m g) => (c', CBad m g)
  | (c', CChan k m) => (c', CChan k m)
  | (c', CExn e) => (c', CExn e)
  end.

(** gtp_controller.py:678-679, 746. *)
Definition closing_message (name text : bytes) : bytes := str "error closing " ++ name ++ colon_lf ++ text.

(** gtp_controller.py:661-680 [close]. *)
Definition close (c : controller) : controller * cres unit :=
  if c_closed c then (c, CExn standard_error)
  else
    match ch_close ch (c_chan c) with
    | (x, None) => (set_closed (with_chan x c), CRet tt)
    | (x, Some (XChan KTransport text)) => (with_chan x c, CChan KTransport (closing_message (c_name c) text))
    | (x, Some (XChan k text)) => (with_chan x c, CChan k text)
    | (x, Some (XOther e)) => (with_chan x c, CExn e)
    end.

(** gtp_controller.py:743-747: the second half of [safe_close]. *)
Definition safe_close_channel (c : controller) : controller * cres unit :=
  match ch_close ch (c_chan c) with
  | (x, None) => (set_closed (with_chan x c), CRet tt)
  | (x, Some (XChan KTransport text)) =>
      (set_closed (add_error (closing_message (c_name c) text) (with_chan x c)), CRet tt)
  | (x, Some (XChan k text)) => (with_chan x c, CChan k text)
  | (x, Some (XOther e)) => (with_chan x c, CExn e)
  end.

(** gtp_controller.py:719-747 [safe_close]. *)
Definition safe_close (c : controller) : controller * cres unit :=
  if c_closed c then (c, CRet tt)
  else if c_bad c then safe_close_channel c
  else
    match safe_do_command c (str "quit") [] with
    | (c', CRet _) => safe_close_channel c'
    | (c', CBad m _) => safe_close_channel (add_error m c')
    | (c', CChan k m) => (c', CChan k m)
    | (c', CExn e) => (c', CExn e)
    end.

(** gtp_controller.py:749-755 [retrieve_error_messages]. *)
Definition retrieve_error_messages (c : controller) : list bytes := c_errors c.

(** gtp_controller.py:758-768 [set_gtp_aliases]. *)
Definition set_gtp_aliases (aliases : dict bytes) (c : controller) : controller :=
  mkCtl (c_chan c) (c_name c) (c_known c) aliases (c_first c) (c_errors c) (c_closed c) (c_bad c).

End Controller.
Arguments controller X : clear implicits.
