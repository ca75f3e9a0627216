(** What the theorems about interactive sessions are stated with (C88). *)
From Verif Require Import Base Bytes GtpModel GtpSpec InteractiveModel.

(** [heard e s lines ws s' responses why]: the engine reads the lines from state [s], and sends the framed
    response to each command among them, until one of them ends the session, the lines end, or a
    response can't be written; the controller gets [responses]. *)
Inductive heard {S : Type} (e : engine S) : S -> list bytes -> list wout -> S -> list bytes -> finish -> Prop :=
| hd_eof s ws : heard e s [] ws s [] AtEof
| hd_ignored s line lines ws s' out why :
    (forall id command args, ~ reads line id command args) ->
    heard e s lines ws s' out why -> heard e s (line :: lines) ws s' out why
| hd_command s line lines ws id command args s1 is_error text s' out why :
    reads line id command args -> run_command e s command args = (s1, (is_error, text, false)) ->
    hd WOk ws = WOk -> heard e s1 lines (tl ws) s' out why ->
    heard e s (line :: lines) ws s' (framed is_error id text :: out) why
| hd_last s line lines ws id command args s1 is_error text :
    reads line id command args -> run_command e s command args = (s1, (is_error, text, true)) ->
    hd WOk ws = WOk ->
    heard e s (line :: lines) ws s1 [framed is_error id text] AtEnd
| hd_pipe s line lines ws id command args s1 is_error text b :
    reads line id command args -> run_command e s command args = (s1, (is_error, text, b)) ->
    heard e s (line :: lines) (WPipe :: ws) s1 [] Disconnected
| hd_error s line lines ws id command args s1 is_error text b :
    reads line id command args -> run_command e s command args = (s1, (is_error, text, b)) ->
    heard e s (line :: lines) (WOther :: ws) s1 [] WriteError.
