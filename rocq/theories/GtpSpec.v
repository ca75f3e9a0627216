(** What GTP lines and responses mean, independently of gtp_engine.py and
    gtp_controller.py. *)
From Verif Require Import Base Bytes PyStr Dict CommonModel GtpModel.

(** ** Command lines (GTP draft 2, section 2.5) *)

Definition blank (c : ascii) : Prop := c = char_sp \/ c = char_tab.

(** [s] is made of the words [ws], separated by spaces and tabs. *)
Inductive spaced : bytes -> list bytes -> Prop :=
| spaced_end s : Forall blank s -> spaced s []
| spaced_word pre w post ws :
    Forall blank pre -> w <> [] -> Forall (fun c => ~ blank c) w ->
    (forall c r, post = c :: r -> blank c) ->
    spaced post ws ->
    spaced (pre ++ w ++ post) (w :: ws).

(** Control characters other than tab. *)
Definition control (c : ascii) : Prop := (ord c < 32 /\ ord c <> 9) \/ ord c = 127.

(** [payload line t]: [t] is what is left of a line when its comment and its control
    characters are discarded. *)
Inductive payload : bytes -> bytes -> Prop :=
| payload_end : payload [] []
| payload_comment r : payload ("#"%char :: r) []
| payload_control c r t : control c -> payload r t -> payload (c :: r) t
| payload_char c r t : c <> "#"%char -> ~ control c -> payload r t -> payload (c :: r) (c :: t).

(** The words of a line. *)
Definition line_words (line : bytes) (ws : list bytes) : Prop :=
  exists t, payload line t /\ spaced t ws.

(** [number w n]: [w] is a decimal numeral, perhaps with a minus sign, of value [n]. *)
Inductive number : bytes -> Z -> Prop :=
| number_pos ds : ds <> [] -> Forall (fun c => is_digit c = true) ds -> number ds (digits_val ds)
| number_neg ds : ds <> [] -> Forall (fun c => is_digit c = true) ds ->
    number ("-"%char :: ds) (- digits_val ds).

(** The id to be echoed for a number given as an id. *)
Definition echoed (w : bytes) (n : Z) : option bytes :=
  if n <? 0 then None
  else if 2147483647 <? n then Some (str "2147483647")
  else Some w.

Definition no_digit_first (w : bytes) : Prop := forall c r, w = c :: r -> is_digit c = false.

(** [reads line id command args]: the line is a command, to be answered with [id]. *)
Inductive reads (line : bytes) : option bytes -> bytes -> list bytes -> Prop :=
| reads_plain w args :
    line_words line (w :: args) ->
    (forall a b n, w = a ++ b -> ~ number a n) ->
    reads line None w args
| reads_joined num n command args :
    line_words line ((num ++ command) :: args) ->
    number num n -> command <> [] -> no_digit_first command ->
    reads line (echoed num n) command args
| reads_separate num n command args :
    line_words line (num :: command :: args) ->
    number num n ->
    reads line (echoed num n) command args.

(** ** Responses (section 2.6) *)

(** The response with a given status, id and text. *)
Definition framed (failure : bool) (id : option bytes) (text : bytes) : bytes :=
  (if failure then "?"%char else "="%char) ::
  (match id with Some i => i | None => [] end) ++
  (match text with [] => [] | _ => char_sp :: text end) ++ [char_lf; char_lf].

(** [within a s]: [a] occurs in [s]. *)
Definition within (a s : bytes) : Prop := exists u v, s = u ++ a ++ v.

(** A text that can be sent as it is: no control characters other than newline, no blank
    line, no white space at its end. *)
Definition neat (s : bytes) : Prop :=
  Forall (fun c => c = char_lf \/ (32 <= ord c /\ ord c <> 127)) s /\
  ~ within [char_lf; char_lf] s /\
  (forall u c, s = u ++ [c] -> is_space c = false).

(** A text without control characters other than tab and newline. *)
Definition printable (s : bytes) : Prop :=
  Forall (fun c => c = char_lf \/ c = char_tab \/ (32 <= ord c /\ ord c <> 127)) s.

(** ** Conversations *)

(** A command that reaches the engine as it was given: no comment character, and no number
    at the start of the command. *)
Definition transmissible (command : bytes) (args : list bytes) : Prop :=
  Forall (fun w => w <> [] /\ Forall (fun c => c <> "#"%char /\
                      ((33 <= ord c <= 126) \/ 128 <= ord c)) w) (command :: args) /\
  (forall a b n, command = a ++ b -> ~ number a n).

Section Conversation.
Context {S : Type}.
Variable e : engine S.

(** The answers to the commands [cs] given one after another to the engine, directly, from
    state [s]: they stop when the engine ends the session. *)
Fixpoint answers (s : S) (cs : list (bytes * list bytes)) : list (bool * bytes) :=
  match cs with
  | [] => []
  | (command, args) :: cs' =>
      let '(s', (is_error, text, end_session)) := run_command e s command args in
      (is_error, text) :: if end_session then [] else answers s' cs'
  end.

(** Operations on a channel. *)
Inductive chan_op : Type :=
| Send (command : bytes) (args : list bytes) (broken : bool)
| Get.

(** Running operations on the two kinds of channel; the result of an operation is the
    exception raised by sending, or the reply. *)
Inductive chan_result : Type :=
| Sent (x : option chan_error)
| Got (r : reply).

Fixpoint run_internal (c : internal S) (ops : list chan_op) : list chan_result :=
  match ops with
  | [] => []
  | Send command args _ :: ops' =>
      let (c', x) := internal_send c command args in Sent x :: run_internal c' ops'
  | Get :: ops' =>
      let (c', r) := internal_get e c in Got r :: run_internal c' ops'
  end.

Fixpoint run_linebased (peeks : bool) (s0 : S) (c : linebased) (ops : list chan_op)
  : list chan_result :=
  match ops with
  | [] => []
  | Send command args broken :: ops' =>
      let (c', x) := linebased_send e s0 broken c command args in
      Sent x :: run_linebased peeks s0 c' ops'
  | Get :: ops' =>
      let (c', r) := linebased_get e s0 peeks c in
      Got r :: run_linebased peeks s0 c' ops'
  end.

End Conversation.

(** The replies among the results. *)
Fixpoint replies (rs : list chan_result) : list reply :=
  match rs with
  | [] => []
  | Got r :: rs' => r :: replies rs'
  | Sent _ :: rs' => replies rs'
  end.

(** The commands sent by a history, and the number of replies it asks for. *)
Fixpoint commands_sent (ops : list chan_op) : list (bytes * list bytes) :=
  match ops with
  | [] => []
  | Send command args _ :: ops' => (command, args) :: commands_sent ops'
  | Get :: ops' => commands_sent ops'
  end.

(** No reply is asked for before its command has been sent ([n] commands are waiting). *)
Fixpoint well_ordered (n : nat) (ops : list chan_op) : Prop :=
  match ops with
  | [] => True
  | Send _ _ _ :: ops' => well_ordered (Datatypes.S n) ops'
  | Get :: ops' => match n with O => False | Datatypes.S m => well_ordered m ops' end
  end.

(** What the controller should be told: the answers in order, and that the channel is closed
    after the last one. *)
Fixpoint expected (n : nat) (as_ : list (bool * bytes)) : list reply :=
  match n with
  | O => []
  | Datatypes.S m =>
      match as_ with
      | [] => Fails Channel_closed :: expected m []
      | (b, t) :: rest => Reply b t :: expected m rest
      end
  end.

Definition gets (ops : list chan_op) : nat :=
  List.length (filter (fun o => match o with Get => true | _ => false end) ops).

(** ** Sessions *)

(** The lines of a file: the last one may lack its newline. *)
Inductive file_lines : bytes -> list bytes -> Prop :=
| fl_end : file_lines [] []
| fl_last l : l <> [] -> ~ In char_lf l -> file_lines l [l]
| fl_line l rest ls : ~ In char_lf l -> file_lines rest ls -> file_lines ((l ++ [char_lf]) ++ rest) ((l ++ [char_lf]) :: ls).

(** [served e s lines s' responses ended]: the engine reads the lines from state [s], and sends the
    framed response to each command among them, until one of them ends the session or the lines
    end. *)
Inductive served {S : Type} (e : engine S) : S -> list bytes -> S -> list bytes -> bool -> Prop :=
| sv_eof s : served e s [] s [] false
| sv_ignored s line lines s' out b :
    (forall id command args, ~ reads line id command args) ->
    served e s lines s' out b -> served e s (line :: lines) s' out b
| sv_command s line lines id command args s1 is_error text s' out b :
    reads line id command args -> run_command e s command args = (s1, (is_error, text, false)) ->
    served e s1 lines s' out b -> served e s (line :: lines) s' (framed is_error id text :: out) b
| sv_last s line lines id command args s1 is_error text :
    reads line id command args -> run_command e s command args = (s1, (is_error, text, true)) ->
    served e s (line :: lines) s1 [framed is_error id text] true.

(** A word that can be the name of a command: visible characters only. *)
Definition command_word (w : bytes) : Prop := w <> [] /\ Forall (fun c => 33 <= ord c /\ ord c <> 127) w.

(** In strictly increasing order. *)
Fixpoint in_order (l : list bytes) : Prop :=
  match l with
  | [] => True
  | x :: r => (forall y, In y r -> bytes_ltb x y = true) /\ in_order r
  end.
