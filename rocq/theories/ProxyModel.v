(** Model of gomill/gtp_proxy.py (Gtp_proxy): an engine that passes commands on to another engine
    (the back end) through a Gtp_controller. *)
From Verif Require Import Base Bytes PyStr Dict CommonModel SgfPropsModel GtpModel ControllerModel.

(** gtp_proxy.py:15-24 BackEndError.cause: the exception that caused the error. *)
Inductive back_cause : Type :=
| By_channel (k : chan_kind)        (* a GtpChannelError *)
| By_response.                      (* a BadGtpResponse *)

(** What a call on a proxy can do. *)
Inductive pres (A : Type) : Type :=
| PRet (a : A)
| PBad (gtp_error_message : bytes)                    (* raises BadGtpResponse *)
| PBack (msg : bytes) (cause : option back_cause)     (* raises BackEndError *)
| PChan (k : chan_kind) (msg : bytes)                 (* raises a GtpChannelError *)
| PRaise (e : exn).                                   (* raises another exception *)
Arguments PRet {A} a.
Arguments PBad {A} gtp_error_message.
Arguments PBack {A} msg cause.
Arguments PChan {A} k msg.
Arguments PRaise {A} e.

Section Proxy.
Context {X U : Type}.
Variable ch : channel X.
(** The text of a traceback (compact_tracebacks.py is not modelled). *)
Variable traceback : exn -> bytes.

(** gtp_proxy.py:67-69: the attribute controller.  The attribute engine is kept apart: it is what
    [set_back_end_controller] returns here.  [px_user] stands for whatever else the program that
    uses the proxy has: its own handlers may use and change it. *)
Record proxy : Type := mkProxy {
  px_back : option (controller X);
  px_user : U
}.

Definition new_proxy (u : U) : proxy := mkProxy None u.

(** gtp_proxy.py:172-193 [pass_command].  (The gtp_error_message of a BadGtpResponse that comes from
    do_command is never missing.) *)
Definition pass_command (p : proxy) (command : bytes) (args : list bytes) : proxy * pres bytes :=
  match px_back p with
  | None => (p, PRaise standard_error)
  | Some c =>
      match do_command ch c command args with
      | (c', r) =>
          (mkProxy (Some c') (px_user p),
           match r with
           | CRet t => PRet t
           | CBad _ (Some (_, _, t)) => PBad t
           | CBad m None => PBad []
           | CChan k m => PBack m (Some (By_channel k))
           | CExn e => PRaise e
           end)
      end
  end.

(** gtp_proxy.py:195-213 [handle_command]. *)
Definition handle_command (p : proxy) (command : bytes) (args : list bytes) : proxy * gres (option bytes) :=
  let (p', r) := pass_command p command args in
  (p', match r with
       | PRet t => GOk (Some t)
       | PBad m => GError m
       | PBack m _ => GFatal m
       | PChan _ _ => GRaise []                  (* never happens: see pass_command *)
       | PRaise e => GRaise (traceback e)
       end).

(** gtp_proxy.py:215-230 [back_end_has_command]. *)
Definition back_end_has_command (p : proxy) (command : bytes) : proxy * pres bool :=
  match px_back p with
  | None => (p, PRaise standard_error)
  | Some c =>
      match known_command ch c command with
      | (c', r) =>
          (mkProxy (Some c') (px_user p),
           match r with
           | CRet b => PRet b
           | CBad _ _ => PBad []                 (* never happens: known_command catches it *)
           | CChan k m => PBack m (Some (By_channel k))
           | CExn e => PRaise e
           end)
      end
  end.

(** gtp_proxy.py:232-239 [expect_back_end_exit] (AttributeError if there is no back end). *)
Definition expect_back_end_exit (p : proxy) : proxy * pres unit :=
  match px_back p with
  | None => (p, PRaise AttributeError)
  | Some c => (mkProxy (Some (set_bad c)) (px_user p), PRet tt)
  end.

(** gtp_proxy.py:241-254 [handle_quit]. *)
Definition handle_quit (p : proxy) (args : list bytes) : proxy * gres (option bytes) :=
  let (p', r) := pass_command p (str "quit") [] in
  match r with
  | PBack m (Some (By_channel KClosed)) => (fst (expect_back_end_exit p'), GQuit [])
  | PBack m _ => (p', GFatal m)
  | PBad m => (fst (expect_back_end_exit p'), GFatal m)
  | PRet t => (fst (expect_back_end_exit p'), GQuit t)
  | PChan _ _ => (p', GRaise [])                 (* never happens *)
  | PRaise e => (p', GRaise (traceback e))
  end.

(** gtp_proxy.py:256-261 [handle_passthrough]. *)
Definition handle_passthrough (p : proxy) (args : list bytes) : proxy * gres (option bytes) :=
  match args with
  | [] => (p, report_bad_arguments)
  | command :: rest => handle_command p command rest
  end.

(** gtp_proxy.py:74-80 [_make_back_end_handlers]. *)
Definition back_end_handler (command : bytes) : handler proxy :=
  User (fun p args => handle_command p command args).

(** gtp_engine.py:256-262 [add_commands] of those handlers. *)
Definition add_back_end_commands (e : engine proxy) (commands : list bytes) : engine proxy :=
  fold_left (fun e command => add_command e command (back_end_handler command)) commands e.

(** gtp_proxy.py:82-89 [_make_engine]. *)
Definition make_engine (commands : list bytes) : engine proxy :=
  add_command (add_command
    (add_protocol_commands (add_back_end_commands new_engine commands))
    (str "quit") (User handle_quit))
    (str "gomill-passthrough") (User handle_passthrough).

(** gtp_proxy.py:91-109 [set_back_end_controller]: the result is the new engine. *)
Definition set_back_end_controller (p : proxy) (c : controller X) : proxy * pres (engine proxy) :=
  match px_back p with
  | Some _ => (p, PRaise standard_error)
  | None =>
      match list_commands ch c with
      | (c', r) =>
          (mkProxy (Some c') (px_user p),
           match r with
           | CRet commands => PRet (make_engine commands)
           | CBad m _ => PBack m (Some By_response)
           | CChan k m => PBack m (Some (By_channel k))
           | CExn e => PRaise e
           end)
      end
  end.

(** gtp_proxy.py:110-127 [set_back_end_subprocess]: [launched] is what creating the channel gave (a
    channel or the text of a GtpChannelError). *)
Definition set_back_end_subprocess (p : proxy) (launched : X + bytes) : proxy * pres (engine proxy) :=
  match launched with
  | inr text => (p, PBack (str "can't launch back end command" ++ char_lf :: text) (Some (By_channel KChannel)))
  | inl x => set_back_end_controller p (new_controller x (str "back end"))
  end.

(** gtp_proxy.py:129-152 [close]. *)
Definition close (p : proxy) : proxy * pres unit :=
  match px_back p with
  | None => (p, PRet tt)
  | Some c =>
      match safe_close ch c with
      | (c', r) =>
          (mkProxy (Some c') (px_user p),
           match r with
           | CRet _ => match retrieve_error_messages c' with
                       | [] => PRet tt
                       | late_errors => PBack (join [char_lf] late_errors) None
                       end
           | CBad m _ => PBad m                  (* never happens *)
           | CChan k m => PChan k m
           | CExn e => PRaise e
           end)
      end
  end.

(** gtp_proxy.py:157-170 [run], on the whole of the text that comes on standard input (the session is
    [run_session] of GtpModel): what was written, and the result. *)
Definition run (e : engine proxy) (p : proxy) (input : bytes) : proxy * bytes * pres unit :=
  let '(p', out, r) := run_session e p input in
  match r with
  | Err x => (p', out, PRaise x)
  | Ok _ => let (p'', r') := close p' in (p'', out, r')
  end.

End Proxy.
Arguments proxy X U : clear implicits.
