(** Model of gomill/terminal_input.py: the keyboard stop.

    The terminal is its attributes, and what each system call does is up to the environment.
    Simplified: the attributes are changed only by this program; the input that is waiting at
    a check is finite; a file descriptor is either open or not. *)
From Verif Require Import Base Bytes.

(** What a call can raise.  [TermiosError] is not a kind of EnvironmentError in Python 2;
    [Interrupt] (KeyboardInterrupt) is not a kind of Exception. *)
Inductive raised : Type := EnvironmentError | TermiosError | OtherException | AttributeErr | Interrupt.

(** The seven elements of a tcgetattr list; [cc] is the list of control characters. *)
Record tcattr : Type := mkAttr { iflag : Z; oflag : Z; cflag : Z; lflag : Z; ispeed : Z; ospeed : Z; cc : list Z }.

(** The constants of the termios module ([None]: there is no such module). *)
Record termios : Type := mkTermios { ICANON : Z; VMIN : nat }.

(** How a call goes: done, or an exception; for tcsetattr also an exception after the
    change was made (a signal's handler runs after the call). *)
Inductive setting : Type := IsSet | NotSet (e : raised) | SetThen (e : raised).
Inductive outcome (A : Type) : Type := Returned (a : A) | Raised (e : raised).
Arguments Returned {A}. Arguments Raised {A}.

(** terminal_input.py:13-15 [__init__], and the attributes set by [initialise]. *)
Record reader : Type := mkReader { enabled : bool; tty : bool; clean : tcattr; cbreak : tcattr }.
Definition some_attr : tcattr := mkAttr 0 0 0 0 0 0 [].
Definition new_reader : reader := mkReader true false some_attr some_attr.

(** terminal_input.py:17-21 [is_enabled], [disable]. *)
Definition is_enabled (r : reader) : bool := enabled r.
Definition disable (r : reader) : reader := mkReader false (tty r) (clean r) (cbreak r).

Fixpoint replace_at (l : list Z) (n : nat) (x : Z) : option (list Z) :=
  match l, n with
  | [], _ => None
  | _ :: r, O => Some (x :: r)
  | y :: r, S n' => option_map (cons y) (replace_at r n' x)
  end.

(** What is found when initialising: whether /dev/tty can be opened, tcgetpgrp works, and
    tcgetattr works. *)
Record init_calls : Type := mkInit { i_open : option raised; i_pgrp : option raised; i_getattr : option raised }.

Definition is_exception (e : raised) : bool := match e with Interrupt => false | _ => true end.
(** [except Exception: self.enabled = False; return]. *)
Definition give_up (r : reader) (e : raised) : reader * outcome unit :=
  if is_exception e then (disable r, Returned tt) else (r, Raised e).

(** terminal_input.py:23-41 [initialise].  [now]: the terminal's attributes. *)
Definition initialise (t : option termios) (c : init_calls) (now : tcattr) (r : reader) : reader * outcome unit :=
  if negb (enabled r) then (r, Returned tt)
  else match t with
  | None => (disable r, Returned tt)
  | Some k =>
      match i_open c with
      | Some e => give_up r e
      | None =>
          let r1 := mkReader (enabled r) true (clean r) (cbreak r) in
          match i_pgrp c with
          | Some e => give_up r1 e
          | None =>
              match i_getattr c with
              | Some e => give_up r1 e
              | None =>
                  let r2 := mkReader (enabled r) true now (cbreak r) in
                  let new_lflag := Z.land (lflag now) (Z.lxor 4294967295 (ICANON k)) in
                  match replace_at (cc now) (VMIN k) 0 with
                  | None => give_up r2 OtherException
                  | Some new_cc =>
                      (mkReader (enabled r) true now
                         (mkAttr (iflag now) (oflag now) (cflag now) new_lflag (ispeed now) (ospeed now) new_cc), Returned tt)
                  end
              end
          end
      end
  end.

(** terminal_input.py:43-46 [close]. *)
Definition close (r : reader) : reader := mkReader (enabled r) false (clean r) (cbreak r).

(** What is found at a check: the terminal's foreground process group (or tcgetpgrp
    fails), and the number of this process; how the first tcsetattr goes; the characters read, and then an empty read or an
    exception; how the second tcsetattr goes. *)
Record check_calls : Type := mkCheck {
  c_pgrp : outcome Z;
  c_pid : Z;
  c_set : setting;
  c_input : list ascii;
  c_end : option raised;
  c_restore : setting
}.

(** The calls made, and the attributes of the terminal after each tcsetattr. *)
Inductive call : Type := Tcgetpgrp | Tcsetattr (a : tcattr) | Read.

Definition ctrl_x : ascii := "024"%char.

(** terminal_input.py:66-72, the loop: the reads made, and whether ^X was seen, or what was
    raised. *)
Fixpoint read_loop (input : list ascii) (end_ : option raised) (seen : bool) : list call * outcome bool :=
  match input with
  | [] => ([Read], match end_ with None => Returned seen | Some e => Raised e end)
  | c :: rest =>
      let '(calls, o) := read_loop rest end_ (if ceqb c ctrl_x then true else seen) in (Read :: calls, o)
  end.

Definition is_environment (e : raised) : bool := match e with EnvironmentError => true | _ => false end.

(** The attributes after a tcsetattr. *)
Definition after_set (s : setting) (new old : tcattr) : tcattr := match s with NotSet _ => old | _ => new end.
Definition set_raises (s : setting) : option raised := match s with IsSet => None | NotSet e => Some e | SetThen e => Some e end.

(** terminal_input.py:48-77 [stop_was_requested]: the calls, the terminal's attributes
    afterwards, and the result. *)
Definition stop_was_requested (c : check_calls) (now : tcattr) (r : reader) : list call * tcattr * outcome bool :=
  if negb (enabled r) then ([], now, Returned false)
  else if negb (tty r) then ([], now, Raised AttributeErr)
  else
    match c_pgrp c with
    | Raised e => ([Tcgetpgrp], now, Raised e)
    | Returned pgrp =>
        if negb (pgrp =? c_pid c) then ([Tcgetpgrp], now, Returned false) else
        let now1 := after_set (c_set c) (cbreak r) now in
        match set_raises (c_set c) with
        | Some e =>
            ([Tcgetpgrp; Tcsetattr (cbreak r)], now1,
             if is_environment e then Returned false else Raised e)
        | None =>
            let '(reads, o) := read_loop (c_input c) (c_end c) false in
            let o1 := match o with
                      | Raised e => if is_environment e then Returned false else Raised e
                      | Returned b => Returned b
                      end in
            ([Tcgetpgrp; Tcsetattr (cbreak r)] ++ reads ++ [Tcsetattr (clean r)],
             after_set (c_restore c) (clean r) now1,
             match set_raises (c_restore c) with Some e => Raised e | None => o1 end)
        end
    end.

(** terminal_input.py:79-81 [acknowledge]: what is written. *)
Definition acknowledge (r : reader) : outcome bytes :=
  if tty r then Returned ("013"%char :: str "Ctrl-X received; halting" ++ ["010"%char]) else Raised AttributeErr.

(** ** A whole life: initialised, and then checked any number of times. *)

(** What the checks return, the attributes in between, and all calls made. *)
Fixpoint checks (cs : list check_calls) (now : tcattr) (r : reader) : list call * tcattr * list (outcome bool) :=
  match cs with
  | [] => ([], now, [])
  | c :: rest =>
      let '(calls, now1, o) := stop_was_requested c now r in
      let '(calls2, now2, os) := checks rest now1 r in
      (calls ++ calls2, now2, o :: os)
  end.
