(** Model of gomill_examples/mogo_wrapper.py: a proxy for mogo that answers 'version' and 'boardsize'
    itself. *)
From Verif Require Import Base Bytes PyStr Dict CommonModel GtpModel ControllerModel ProxyModel.

(** How the program ends before there is a session. *)
Inductive ending : Type :=
| Exit_message (msg : bytes)              (* sys.exit(msg): status 1 *)
| Back_end_error (msg : bytes)            (* an unhandled BackEndError: a traceback, status 1 *)
| Bad_response (msg : bytes)              (* an unhandled BadGtpResponse: a traceback, status 1 *)
| Unhandled (e : exn).                    (* another exception: a traceback, status 1 *)

(** mogo_wrapper.py:19-24: the size, from sys.argv[1:]. *)
Definition size_parameter (argv : list bytes) : option bytes :=
  match argv with
  | [] => None                            (* IndexError *)
  | a :: _ => if existsb (bytes_eqb a) [str "--9"; str "--13"; str "--19"] then Some (skipn 2 a) else None
  end.

(** mogo_wrapper.py:35: the command. *)
Definition mogo_command (executable : bytes) (argv : list bytes) : list bytes := executable :: argv.

Section Mogo.
Context {X : Type}.
Variable ch : channel X.
Variable traceback : exn -> bytes.
Notation P := (proxy X unit).

(** mogo_wrapper.py:14-16 [handle_version]. *)
Definition handle_version (p : P) (args : list bytes) : P * gres (option bytes) :=
  (p, GOk (Some (str "2007 public release"))).

(** mogo_wrapper.py:26-32 [handle_boardsize]. *)
Definition handle_boardsize (size : bytes) (p : P) (args : list bytes) : P * gres (option bytes) :=
  (p, match args with
      | [] => report_bad_arguments
      | a :: _ => if negb (bytes_eqb a size) then GError (str "board size " ++ size ++ str " only please") else GOk None
      end).

(** mogo_wrapper.py:36-37. *)
Definition add_mogo_commands (size : bytes) (e : engine P) : engine P :=
  add_command (add_command e (str "version") (User handle_version)) (str "boardsize") (User (handle_boardsize size)).

(** mogo_wrapper.py:18-38 [main], up to the session; [launched]: what creating the channel gave, if the
    program got that far. *)
Definition start (launched : X + bytes) (argv : list bytes) : P * (engine P + ending) :=
  match size_parameter argv with
  | None => (new_proxy tt, inr (Exit_message (str "mogo_wrapper: first parameter must be --9, --13, or --19")))
  | Some size =>
      let (p1, r) := set_back_end_subprocess ch traceback (new_proxy tt) launched in
      match r with
      | PRet e =>
          let e' := add_mogo_commands size e in
          let (p2, r) := pass_command ch p1 (str "boardsize") [size] in
          (p2, match r with
               | PRet _ => inl e'
               | PBad m => inr (Bad_response m)
               | PBack m _ => inr (Back_end_error m)
               | PChan _ m => inr (Back_end_error m)      (* never happens *)
               | PRaise x => inr (Unhandled x)
               end)
      | PBack m _ => (p1, inr (Back_end_error m))
      | PBad m => (p1, inr (Bad_response m))              (* never happens *)
      | PChan _ m => (p1, inr (Back_end_error m))         (* never happens *)
      | PRaise x => (p1, inr (Unhandled x))
      end
  end.
End Mogo.
