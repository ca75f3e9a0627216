(** Specification vocabulary for Gtp_controller: what is seen on the channel, and sequences of
    calls. *)
From Verif Require Import Base Bytes PyStr Dict GtpModel ControllerModel.

(** ** What happens on the channel *)

Inductive cevent : Type :=
| EvSend (command : bytes) (args : list bytes) (r : option chan_exc)
| EvGet (r : (bool * bytes) + chan_exc)
| EvClose (r : option chan_exc).

(** Any channel, with a record of the calls made on it and its answers. *)
Definition recorded {X} (ch : channel X) : channel (X * list cevent) :=
  mkChannel _
    (fun x c a => let (x', r) := ch_send ch (fst x) c a in ((x', snd x ++ [EvSend c a r]), r))
    (fun x => let (x', r) := ch_get ch (fst x) in ((x', snd x ++ [EvGet r]), r))
    (fun x => let (x', r) := ch_close ch (fst x) in ((x', snd x ++ [EvClose r]), r)).

(** The record kept by a controller's channel. *)
Definition trace {X} (c : controller (X * list cevent)) : list cevent := snd (c_chan c).

(** ** Sequences of calls *)

Inductive call : Type :=
| Do (command : bytes) (args : list bytes)
| Safe_do (command : bytes) (args : list bytes)
| Known (command : bytes)
| Safe_known (command : bytes)
| Check_version
| List_commands
| Close
| Safe_close
| Set_aliases (a : dict bytes).

(** The answer a call returns. *)
Inductive answer : Type :=
| VText (s : bytes) | VNone | VBool (b : bool) | VList (l : list bytes).

Definition lift {A S} (f : A -> answer) (x : S * cres A) : S * cres answer :=
  (fst x, match snd x with
          | CRet a => CRet (f a) | CBad m g => CBad m g | CChan k m => CChan k m | CExn e => CExn e
          end).
Definition of_option (o : option bytes) : answer := match o with Some s => VText s | None => VNone end.
Definition of_unit (u : unit) : answer := VNone.

Definition perform {X} (ch : channel X) (o : call) (c : controller X) : controller X * cres answer :=
  match o with
  | Do cmd args => lift VText (do_command ch c cmd args)
  | Safe_do cmd args => lift of_option (safe_do_command ch c cmd args)
  | Known cmd => lift VBool (known_command ch c cmd)
  | Safe_known cmd => lift VBool (safe_known_command ch c cmd)
  | Check_version => lift of_unit (check_protocol_version ch c)
  | List_commands => lift VList (list_commands ch c)
  | Close => lift of_unit (close ch c)
  | Safe_close => lift of_unit (safe_close ch c)
  | Set_aliases a => (set_gtp_aliases a c, CRet VNone)
  end.

(** [after ch c os c' rs]: the calls [os], made one after another, take the controller from
    [c] to [c'], with the results [rs]. *)
Inductive after {X} (ch : channel X) (c : controller X) : list call -> controller X -> list (cres answer) -> Prop :=
| after_nil : after ch c [] c []
| after_step os c1 rs o c2 r :
    after ch c os c1 rs -> perform ch o c1 = (c2, r) -> after ch c (os ++ [o]) c2 (rs ++ [r]).

(** Controllers that come from a new one (over a channel whose events are recorded). *)
Definition reached {X} (ch : channel X) (c : controller (X * list cevent)) : Prop :=
  exists x name os rs, after (recorded ch) (new_controller (x, []) name) os c rs.

Definition is_safe (o : call) : bool :=
  match o with Safe_do _ _ | Safe_known _ | Safe_close => true | _ => false end.

(** ** Errors *)

(** The low-level error that an cevent is, if it is one. *)
Definition low_level_error (ev : cevent) : option bytes :=
  match ev with
  | EvSend _ _ (Some (XChan _ text)) => Some text
  | EvGet (inr (XChan _ text)) => Some text
  | _ => None
  end.

(** The trouble that [safe_close] may see: also a failure response, or an error closing. *)
Definition trouble (ev : cevent) : option bytes :=
  match ev with
  | EvGet (inl (true, text)) => Some text
  | EvClose (Some (XChan KTransport text)) => Some text
  | _ => low_level_error ev
  end.

Fixpoint texts (f : cevent -> option bytes) (evs : list cevent) : list bytes :=
  match evs with
  | [] => []
  | ev :: rest => match f ev with Some t => t :: texts f rest | None => texts f rest end
  end.

(** A message about [text] from the engine [name]. *)
Definition message_about (name : bytes) (msg text : bytes) : Prop :=
  exists what, msg = what ++ name ++ str ":" ++ [char_lf] ++ text.

(** The channel raised something other than a GtpChannelError (or, when closing, other than a
    GtpTransportError). *)
Definition unexpected (ev : cevent) : bool :=
  match ev with
  | EvSend _ _ (Some (XOther _)) => true
  | EvGet (inr (XOther _)) => true
  | EvClose (Some (XOther _)) => true
  | EvClose (Some (XChan KTransport _)) => false
  | EvClose (Some (XChan _ _)) => true
  | _ => false
  end.

Definition is_close (ev : cevent) : bool := match ev with EvClose _ => true | _ => false end.

(** One command: it is sent, and if it could be sent then one response is read. *)
Inductive exchange (command : bytes) (args : list bytes) : list cevent -> Prop :=
| ex_unsent x : exchange command args [EvSend command args (Some x)]
| ex_sent r : exchange command args [EvSend command args None; EvGet r].

(** What [command] stands for. *)
Definition meaning (aliases : dict bytes) (command : bytes) : bytes :=
  match dget command aliases with Some u => u | None => command end.

(** What a command's events mean for the caller of [do_command]. *)
Definition outcome (name command : bytes) (args : list bytes) (evs : list cevent) (r : cres bytes) : Prop :=
  match evs with
  | [EvSend _ _ (Some (XChan k text))] => exists msg, r = CChan k msg /\ message_about name msg text
  | [EvSend _ _ (Some (XOther e))] => r = CExn e
  | [EvSend _ _ None; EvGet (inl (false, text))] => r = CRet text
  | [EvSend _ _ None; EvGet (inl (true, text))] =>
      exists msg, r = CBad msg (Some (command, args, text)) /\ message_about name msg text
  | [EvSend _ _ None; EvGet (inr (XChan k text))] => exists msg, r = CChan k msg /\ message_about name msg text
  | [EvSend _ _ None; EvGet (inr (XOther e))] => r = CExn e
  | _ => False
  end.

(** The engine's answer to [known_command]: yes only for a success response saying "true". *)
Definition says_yes (evs : list cevent) : bool :=
  match evs with
  | [EvSend _ _ None; EvGet (inl (false, text))] => bytes_eqb text (str "true")
  | _ => false
  end.

(** [asks o command]: the call [o] is [known_command] or [safe_known_command] for [command]. *)
Definition asks (o : call) (command : bytes) : Prop := o = Known command \/ o = Safe_known command.
