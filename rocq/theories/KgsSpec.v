(** Specification vocabulary for the kgsGtp proxy (kgs_proxy.py). *)
From Verif Require Import Base Bytes PyStr Dict CommonModel GtpModel GtpSpec ControllerModel ControllerSpec ProxyModel ProxySpec KgsModel.
From Verif Require Import EngineSpec.

(** [w] is a GTP name of the colour [c]. *)
Definition names_colour (w : bytes) (c : colour) : Prop :=
  match c with
  | Black => map lower_char w = str "b" \/ map lower_char w = str "black"
  | White => map lower_char w = str "w" \/ map lower_char w = str "white"
  end.

(** [last_asked cmds oc]: [oc] is the colour of the last genmove command of [cmds] that has one. *)
Inductive last_asked : list (bytes * list bytes) -> option colour -> Prop :=
| la_none : last_asked [] None
| la_asked cmds a args c oc : last_asked cmds oc -> names_colour a c ->
    last_asked (cmds ++ [(str "genmove", a :: args)]) (Some c)
| la_other cmds command args oc : last_asked cmds oc ->
    ~ (command = str "genmove" /\ exists a rest c, args = a :: rest /\ names_colour a c) ->
    last_asked (cmds ++ [(command, args)]) oc.

(** [session e p cmds p']: the engine [e] was given the commands [cmds], one after the other. *)
Inductive session {S : Type} (e : engine S) (p : S) : list (bytes * list bytes) -> S -> Prop :=
| se_none : session e p [] p
| se_more cmds p1 command args p2 reply : session e p cmds p1 -> run_command e p1 command args = (p2, reply) ->
    session e p (cmds ++ [(command, args)]) p2.

(** [free t existing i f]: [i] is the first number whose filename isn't in the directory yet, and [f] that
    filename. *)
Definition free (t : template) (existing : list bytes) (i : Z) (f : bytes) : Prop :=
  0 <= i < 10000 /\ t i = Some f /\ ~ In f existing /\
  forall j, 0 <= j < i -> exists g, t j = Some g /\ In g existing.

(** [p'] comes from [p] by the events [evs] on the connection to the back end, which is still open. *)
Definition conversed {X U : Type} (p p' : proxy (X * list cevent) U) (evs : list cevent) : Prop :=
  exists c c', px_back p = Some c /\ px_back p' = Some c' /\ trace c' = trace c ++ evs /\ c_closed c' = false.

(** The part of a version that is shown: without the name, without what follows ". Please read http:", and at
    most 32 characters (white space at the end doesn't count). *)
Definition short_version (name version s : bytes) : Prop :=
  exists v u white, nameless (Some name) version v /\
    (upto (str ". Please read http:") v u \/ (absent (str ". Please read http:") v /\ u = v)) /\
    firstn 32 u = s ++ white /\ blanks white /\
    (forall a c, s = a ++ [c] -> is_space c = false).

(** A channel that refuses what can't be sent in GTP, as all Gtp_channels do (gtp_controller.py:121-140). *)
Definition refuses {X} (ch : channel X) : Prop :=
  forall x command args, sendable command args = false -> ch_send ch x command args = (x, Some (XOther ValueError)).

(** ** Starting *)

(** The engine answered a command, or gave a failure response. *)
Definition answered (command : bytes) (args : list bytes) (t : bytes) : list cevent :=
  [EvSend command args None; EvGet (inl (false, t))].
Definition failed (command : bytes) (args : list bytes) (t : bytes) : list cevent :=
  [EvSend command args None; EvGet (inl (true, t))].

(** Asking for the name and the version: what happened, and the name found. *)
Inductive naming : list cevent -> option bytes -> Prop :=
| na_none m : naming (failed (str "name") [] m) None
| na_name n m : naming (answered (str "name") [] n ++ failed (str "version") [] m) (Some n)
| na_both n v s : short_version n v s ->
    naming (answered (str "name") [] n ++ answered (str "version") [] v) (Some (n ++ str ":" ++ s)).

(** The events on the connection of a proxy. *)
Definition events {X U : Type} (p : proxy (X * list cevent) U) : list cevent :=
  match px_back p with Some c => trace c | None => [] end.

(** The last event was a low-level error with the text [t]; or some other exception of the channel. *)
Definition broke (evs : list cevent) (t : bytes) : Prop := exists pre ev, evs = pre ++ [ev] /\ low_level_error ev = Some t.
Definition astray (evs : list cevent) : Prop := exists pre ev, evs = pre ++ [ev] /\ unexpected ev = true.

(** Ends in which a proxy is not started: because of a low-level error, or a failure response to
    list_commands; or because the games were to be saved and the engine can't do that. *)
Inductive not_started (saving : bool) (evs : list cevent) : ending -> Prop :=
| ns_broke msg t : broke evs t -> message_about (str "back end") msg t ->
    not_started saving evs (Exit_message (str "kgs_proxy: " ++ msg))
| ns_list msg t : evs = failed (str "list_commands") [] t -> message_about (str "back end") msg t ->
    not_started saving evs (Exit_message (str "kgs_proxy: " ++ msg))
| ns_unable t (is_error : bool) l :
    evs = answered (str "list_commands") [] l ++ [EvSend (str "known_command") [str "gomill-savesgf"] None; EvGet (inl (is_error, t))] ->
    saving = true -> (is_error = false -> t <> str "true") ->
    not_started saving evs (Exit_message (str "kgs_proxy: back end doesn't support gomill-savesgf"))
| ns_astray e : astray evs -> not_started saving evs (Unhandled e).

(** ** Saving games *)

(** How the name is written in the argument: a backslash before each backslash and each blank. *)
Fixpoint kgs_coded (n : bytes) : bytes :=
  match n with
  | [] => []
  | c :: r => (if ceqb c "\"%char || ceqb c " "%char then ["\"%char; c] else [c]) ++ kgs_coded r
  end.

(** The option of gomill-savesgf that says who we are, if we know the name and the colour. *)
Definition player_option (oc : option colour) (name : option bytes) : list bytes :=
  match oc, name with
  | Some Black, Some n => [str "PB=" ++ kgs_coded n]
  | Some White, Some n => [str "PW=" ++ kgs_coded n]
  | _, _ => []
  end.

(** How many of the commands were kgs-game_over. *)
Fixpoint games_over (cmds : list (bytes * list bytes)) : nat :=
  match cmds with
  | [] => O
  | (command, _) :: rest => (if bytes_eqb command (str "kgs-game_over") then S (games_over rest) else games_over rest)
  end.

(** What is logged about the command that saves the game. *)
Definition save_log (evs : list cevent) (lines : list bytes) : Prop :=
  match evs with
  | [EvSend _ _ None; EvGet (inl (true, t))] => lines = [str "error: " ++ t]
  | [EvSend _ _ (Some (XChan _ t))] | [EvSend _ _ None; EvGet (inr (XChan _ t))] =>
      exists msg, message_about (str "back end") msg t /\ lines = [str "error: " ++ msg]
  | _ => lines = []
  end.
