(** Model of gomill/gtp_engine.py:424-523: GTP sessions whose controller may go away, and
    interactive sessions with readline. *)
From Verif Require Import Base Bytes EngineModel GtpModel.

(** What [write] does: it succeeds, or raises IOError with errno EPIPE or another one. *)
Inductive wout : Type := WOk | WPipe | WOther.
(** How [_run_gtp_session] ends: it returns (at the end of the input, or as the engine ended the
    session), raises ControllerDisconnected, the IOError, or another exception. *)
Inductive finish : Type := AtEof | AtEnd | Disconnected | WriteError | Raises (e : exn).

Section Session.
Context {S : Type}.
Variable e : engine S.

(** gtp_engine.py:428-446 [_run_gtp_session]: the engine's state afterwards, what has been
    written, and how it ended.  [ws]: what the writes do (all those after the last of them
    succeed); [input]: all the text that will ever come.  [fuel] bounds the number of lines, as
    in GtpModel.session. *)
Fixpoint loop (fuel : nat) (read : bytes -> option (bytes * bytes)) (s : S) (input : bytes) (ws : list wout) : S * bytes * finish :=
  match fuel with
  | O => (s, [], Raises OutOfFuel)
  | Datatypes.S f =>
      match read input with
      | None => (s, [], AtEof)
      | Some (line, rest) =>
          match handle_line e s line with
          | (s', Err x) => (s', [], Raises x)
          | (s', Ok (None, true)) => (s', [], AtEnd)
          | (s', Ok (None, false)) => loop f read s' rest ws
          | (s', Ok (Some t, end_session)) =>
              match ws with
              | WPipe :: _ => (s', [], Disconnected)
              | WOther :: _ => (s', [], WriteError)
              | _ =>
                  if end_session then (s', t, AtEnd)
                  else let '(s'', w, x) := loop f read s' rest (tl ws) in (s'', t ++ w, x)
              end
          end
      end
  end.

(** gtp_engine.py:459-463 [read] in run_gtp_session. *)
Definition read_file (input : bytes) : option (bytes * bytes) :=
  match readline input with ([], _) => None | (l, rest) => Some (l, rest) end.

(** [raw_input()]: the next line without its newline. *)
Definition read_raw (input : bytes) : option (bytes * bytes) :=
  match readline input with
  | ([], _) => None
  | (l, rest) => Some (if ceqb (last l char_sp) char_lf then removelast l else l, rest)
  end.

(** gtp_engine.py:448-467 [run_gtp_session]. *)
Definition run_gtp_session (s : S) (input : bytes) (ws : list wout) : S * bytes * finish :=
  loop (Datatypes.S (List.length input)) read_file s input ws.

(** gtp_engine.py:469-478 [make_readline_completer]; [state] is never negative. *)
Definition completer (text : bytes) (state : nat) : option bytes :=
  option_map (fun c => c ++ [char_sp]) (nth_error (filter (starts_with text) (list_commands e)) state).

(** readline's state, and ~/.gomill-gtp-history. *)
Record terminal : Type := mkTerminal {
  t_completer : option (bytes -> nat -> option bytes);
  t_delims : bytes;
  t_history : list bytes;
  t_tab_completes : bool;           (* "tab: complete" *)
  t_file : option (list bytes);     (* None: it can't be read *)
  t_writable : bool                 (* the file can be written *)
}.

(** What [raw_input] does to the history: a line is added if it isn't empty and not the same as
    the last one. *)
Definition remember (h : list bytes) (line : bytes) : list bytes :=
  match line with [] => h | _ => if bytes_eqb (last h []) line then h else h ++ [line] end.

(** The lines that [loop] reads with [read_raw]. *)
Fixpoint lines_read (fuel : nat) (s : S) (input : bytes) (ws : list wout) : list bytes :=
  match fuel with
  | O => []
  | Datatypes.S f =>
      match read_raw input with
      | None => []
      | Some (line, rest) =>
          line ::
          match handle_line e s line with
          | (s', Ok (None, false)) => lines_read f s' rest ws
          | (s', Ok (Some _, false)) => match ws with WPipe :: _ | WOther :: _ => [] | _ => lines_read f s' rest (tl ws) end
          | _ => []
          end
      end
  end.

(** gtp_engine.py:480-523 [run_interactive_gtp_session]: if stdin isn't a terminal or readline
    can't be imported ([use_readline] false) this is run_gtp_session.  Not modelled: KeyboardInterrupt (like the exceptions
    of [loop], it leaves readline as it is). *)
Definition run_interactive_gtp_session (use_readline : bool) (s : S) (input : bytes) (ws : list wout) (t : terminal)
  : S * bytes * finish * terminal :=
  if negb use_readline then (run_gtp_session s input ws, t)
  else
    let fuel := Datatypes.S (List.length input) in
    let history := match t_file t with Some h => t_history t ++ h | None => t_history t end in
    let r := loop fuel read_raw s input ws in
    let history' := fold_left remember (lines_read fuel s input ws) history in
    match snd r with
    | AtEof | AtEnd =>
        (r, mkTerminal (t_completer t) (t_delims t) history' true
              (if t_writable t then Some history' else t_file t) (t_writable t))
    | _ => (r, mkTerminal (Some completer) [] history' true (t_file t) (t_writable t))
    end.

End Session.
