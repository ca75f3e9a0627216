(** What the test player does, by the history of the session. *)
From Verif Require Import Base Bytes PyStr CommonModel GtpModel GtpArgSpec TestPlayerModel.

Definition command : Type := (bytes * list bytes)%type.

(** How many moves there have been. *)
Inductive moves : list command -> Z -> Prop :=
| mv_none : moves [] 0
| mv_move h n args c : moves h n -> c = str "genmove" \/ c = str "play" -> moves (h ++ [(c, args)]) (n + 1)
| mv_other h n args c : moves h n -> c <> str "genmove" -> c <> str "play" -> moves (h ++ [(c, args)]) n.

(** A move number: a negative one counts as -1, one too large for GTP as the largest. *)
Inductive move_number : bytes -> Z -> Prop :=
| mn_small s n : int_literal s n -> 0 <= n <= 2147483647 -> move_number s n
| mn_negative s n : int_literal s n -> n < 0 -> move_number s (-1)
| mn_large s n : int_literal s n -> 2147483647 < n -> move_number s 2147483647.

(** An error set for move [n] comes with the genmove which is move number [k]. *)
Definition due (n k : Z) : Prop := n <> 0 /\ n <= k.

(** [waiting h d]: the error which has been set but hasn't come yet. *)
Inductive waiting : list command -> option (Z * list bytes) -> Prop :=
| wt_none : waiting [] None
| wt_set h d a n r : waiting h d -> move_number a n -> waiting (h ++ [(str "gomill-delayed_error", a :: r)]) (Some (n, r))
| wt_bad h d args : waiting h d -> (forall a r n, args = a :: r -> ~ move_number a n) ->
    waiting (h ++ [(str "gomill-delayed_error", args)]) d
| wt_comes h n r args k : waiting h (Some (n, r)) -> moves h k -> due n (k + 1) ->
    waiting (h ++ [(str "genmove", args)]) None
| wt_not_yet h n r args k : waiting h (Some (n, r)) -> moves h k -> ~ due n (k + 1) ->
    waiting (h ++ [(str "genmove", args)]) (Some (n, r))
| wt_nothing h args : waiting h None -> waiting (h ++ [(str "genmove", args)]) None
| wt_other h d c args : waiting h d -> c <> str "gomill-delayed_error" -> c <> str "genmove" -> waiting (h ++ [(c, args)]) d.

(** The kinds of error; [text]: the response that comes after the ill-formed one. *)
Inductive misbehaves (tb : bytes) : list bytes -> bytes -> turn -> Prop :=
| mb_default text : misbehaves tb [] text (Answered [] true (str "forced GTP error") false)
| mb_error r text : misbehaves tb (str "error" :: r) text (Answered [] true (str "forced GTP error") false)
| mb_exit r text : misbehaves tb (str "exit" :: r) text (Answered [] true (str "forced GTP error; exiting") true)
| mb_internal r text :
    misbehaves tb (str "internal" :: r) text (Answered [] true (clean_response (str "internal error" ++ char_lf :: tb)) false)
| mb_kill r text : misbehaves tb (str "kill" :: r) text Died
| mb_protocol r text :
    misbehaves tb (str "protocol" :: r) text (Answered (str "!! forced ill-formed GTP response" ++ [char_lf]) false text false)
| mb_unknown a r text : ~ In a [str "error"; str "exit"; str "internal"; str "kill"; str "protocol"] ->
    misbehaves tb (a :: r) text (Answered [] true (str "unknown force_error argument") false).

Definition succeeds (text : bytes) : turn := Answered [] false text false.
Definition fails (text : bytes) : turn := Answered [] true text false.

(** In alphabetical order. *)
Definition known : list bytes :=
  [str "boardsize"; str "clear_board"; str "genmove"; str "gomill-delayed_error"; str "gomill-force_error";
   str "known_command"; str "komi"; str "list_commands"; str "name"; str "play"; str "protocol_version"; str "quit"; str "version"].

(** [answers tb h c args t]: after the commands [h], the answer to this one is [t]. *)
Inductive answers (tb : bytes) (h : list command) : bytes -> list bytes -> turn -> Prop :=
| an_comes n r k args t : waiting h (Some (n, r)) -> moves h k -> due n (k + 1) ->
    misbehaves tb r (str "pass") t -> answers tb h (str "genmove") args t
| an_not_yet n r k args : waiting h (Some (n, r)) -> moves h k -> ~ due n (k + 1) ->
    answers tb h (str "genmove") args (succeeds (str "pass"))
| an_pass args : waiting h None -> answers tb h (str "genmove") args (succeeds (str "pass"))
| an_force args t : misbehaves tb args [] t -> answers tb h (str "gomill-force_error") args t
| an_set a r n : move_number a n -> answers tb h (str "gomill-delayed_error") (a :: r) (succeeds [])
| an_unset : answers tb h (str "gomill-delayed_error") [] (fails (str "invalid arguments"))
| an_bad a r : (forall n, ~ move_number a n) ->
    answers tb h (str "gomill-delayed_error") (a :: r) (fails (clean_response (str "invalid int: '" ++ a ++ str "'")))
| an_silent c args : In c [str "play"; str "boardsize"; str "clear_board"; str "komi"; str "version"] -> answers tb h c args (succeeds [])
| an_name args : answers tb h (str "name") args (succeeds (str "GTP test player"))
| an_version args : answers tb h (str "protocol_version") args (succeeds (str "2"))
| an_known a r : In a known -> answers tb h (str "known_command") (a :: r) (succeeds (str "true"))
| an_not_known args : (forall a r, args = a :: r -> ~ In a known) -> answers tb h (str "known_command") args (succeeds (str "false"))
| an_list args : answers tb h (str "list_commands") args (succeeds (join [char_lf] known))
| an_quit args : answers tb h (str "quit") args (Answered [] false [] true)
| an_unknown c args : ~ In c known -> answers tb h c args (fails (str "unknown command")).

Definition session_goes_on (t : turn) : Prop := exists before is_error text, t = Answered before is_error text false.

(** [conversation tb h cmds ts]: after [h], the answers to the commands [cmds] are [ts]; no more than one
    that ends the session. *)
Inductive conversation (tb : bytes) : list command -> list command -> list turn -> Prop :=
| cv_none h : conversation tb h [] []
| cv_more h c args rest t ts : answers tb h c args t -> session_goes_on t -> conversation tb (h ++ [(c, args)]) rest ts ->
    conversation tb h ((c, args) :: rest) (t :: ts)
| cv_last h c args rest t : answers tb h c args t -> ~ session_goes_on t ->
    conversation tb h ((c, args) :: rest) [t].
