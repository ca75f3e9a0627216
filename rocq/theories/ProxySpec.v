(** Specification vocabulary for proxies (gtp_proxy.py). *)
From Verif Require Import Base Bytes PyStr Dict CommonModel GtpModel GtpSpec ControllerModel ControllerSpec ProxyModel.

(** The commands that a proxy answers itself. *)
Definition own_commands : list bytes :=
  map str ["known_command"; "list_commands"; "protocol_version"; "quit"; "gomill-passthrough"]%string.

(** [customised e0 names e]: [e] comes from [e0] by adding and removing commands with the names
    [names]. *)
Inductive customised {S : Type} (e0 : engine S) : list bytes -> engine S -> Prop :=
| cu_none : customised e0 [] e0
| cu_add names e name h : customised e0 names e -> customised e0 (name :: names) (add_command e name h)
| cu_remove names e name : customised e0 names e -> customised e0 (name :: names) (remove_command e name)
| cu_fatal names e b : customised e0 names e -> customised e0 names (set_handler_exceptions_fatal e b).

(** A text given to the engine to be sent: as it is, if it is fit to be sent. *)
Definition sent_as (t text : bytes) : Prop := text = clean_response t /\ (neat t -> text = t).

(** [relayed name fatal evs is_error text ended]: the response to a command that was passed on, when
    [evs] is what happened between the proxy and its back end [name]. *)
Definition relayed (name : bytes) (fatal : bool) (evs : list cevent) (is_error : bool) (text : bytes) (ended : bool) : Prop :=
  match evs with
  | [EvSend _ _ None; EvGet (inl (false, t))] => is_error = false /\ sent_as t text /\ ended = false
  | [EvSend _ _ None; EvGet (inl (true, t))] =>
      is_error = true /\ ended = false /\
      match t with [] => text = str "unspecified error" | _ => sent_as t text end
  | [EvSend _ _ (Some (XChan _ t))] | [EvSend _ _ None; EvGet (inr (XChan _ t))] =>
      is_error = true /\ ended = true /\ exists msg, message_about name msg t /\ sent_as msg text
  | [EvSend _ _ (Some (XOther _))] | [EvSend _ _ None; EvGet (inr (XOther _))] =>
      is_error = true /\ ended = fatal
  | _ => False
  end.

(** The same for the command 'quit'. *)
Definition quit_relayed (name : bytes) (fatal : bool) (evs : list cevent) (is_error : bool) (text : bytes) (ended : bool) : Prop :=
  match evs with
  | [EvSend _ _ None; EvGet (inl (false, t))] => is_error = false /\ sent_as t text /\ ended = true
  | [EvSend _ _ None; EvGet (inl (true, t))] =>
      is_error = true /\ ended = true /\
      match t with [] => text = str "unspecified fatal error" | _ => sent_as t text end
  | [EvSend _ _ (Some (XChan KClosed t))] | [EvSend _ _ None; EvGet (inr (XChan KClosed t))] =>
      is_error = false /\ text = [] /\ ended = true
  | [EvSend _ _ (Some (XChan _ t))] | [EvSend _ _ None; EvGet (inr (XChan _ t))] =>
      is_error = true /\ ended = true /\ exists msg, message_about name msg t /\ sent_as msg text
  | [EvSend _ _ (Some (XOther _))] | [EvSend _ _ None; EvGet (inr (XOther _))] =>
      is_error = true /\ ended = fatal
  | _ => False
  end.

Section Proxies.
Context {X U : Type}.

(** [talked p p' evs]: between [p] and [p'], [evs] happened between the proxy and its back end, and the
    connection is still open. *)
Definition talked (p p' : proxy (X * list cevent) U) (evs : list cevent) : Prop :=
  exists c c', px_back p = Some c /\ px_back p' = Some c' /\ px_user p' = px_user p /\
    trace c' = trace c ++ evs /\ c_closed c' = false /\
    c_name c' = c_name c /\ c_aliases c' = c_aliases c /\ c_errors c' = c_errors c.

(** A proxy with a back end [name], which has [aliases] and is still connected. *)
Definition connected (p : proxy (X * list cevent) U) (name : bytes) (aliases : dict bytes) : Prop :=
  exists c, px_back p = Some c /\ c_name c = name /\ c_aliases c = aliases /\ c_closed c = false.

End Proxies.

(** ** Talking to the back end directly, or through a proxy *)

(** An engine whose responses can be sent as they are, and which ends the session only when told
    to quit. *)
Definition well_behaved {T : Type} (be : engine T) : Prop :=
  forall t command args t' is_error text ended,
  run_command be t command args = (t', (is_error, text, ended)) ->
  neat text /\ (forall c r, text = c :: r -> is_blank c = false) /\
  (is_error = true -> text <> []) /\
  (ended = true -> command = str "quit" /\ is_error = false).

(** A command for which the back end itself (which has the commands [commands]) and a proxy for it
    (customised with the names [names]) should give the same answer. *)
Definition alike (commands names : list bytes) (command : bytes) (args : list bytes) : Prop :=
  In command commands /\ ~ In command names /\
  command <> str "list_commands" /\ command <> str "gomill-passthrough" /\
  (command = str "quit" -> args = []) /\
  (command = str "known_command" -> forall w rest, args = w :: rest -> w <> str "gomill-passthrough" /\ ~ In w names).

(** The channels of GtpModel as channels of ControllerModel: an engine in the same process... *)
Definition as_exc (x : chan_error) : chan_exc :=
  match x with
  | Channel_closed => XChan KClosed (str "engine has closed the channel")
  | Protocol_error => XChan KProtocol (str "bad response")
  | Channel_error => XChan KChannel (str "no outstanding commands")
  | Bad_word => XOther ValueError
  | Blocked => XOther OutOfFuel
  end.
Definition as_reply (r : reply) : (bool * bytes) + chan_exc :=
  match r with Reply b t => inl (b, t) | Fails x => inr (as_exc x) end.
Definition internal_channel {T} (be : engine T) : channel (internal T) :=
  mkChannel _
    (fun x c a => let (x', r) := internal_send x c a in (x', option_map as_exc r))
    (fun x => let (x', r) := internal_get be x in (x', as_reply r))
    (fun x => (x, None)).

(** ... or in another process that runs a GTP session, started in the state [s0]. *)
Definition pipe_channel {T} (be : engine T) (s0 : T) (broken peeks : bool) : channel linebased :=
  mkChannel _
    (fun x c a => let (x', r) := linebased_send be s0 broken x c a in (x', option_map as_exc r))
    (fun x => let (x', r) := linebased_get be s0 peeks x in (x', as_reply r))
    (fun x => (x, None)).
