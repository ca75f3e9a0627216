(** What a controller is to make of the bytes that a program sends. *)
From Verif Require Import Base Bytes PyStr GtpModel PipeModel.
Open Scope Z_scope.

(** Control characters are ignored, other than tab and newline. *)
Definition ignored (c : ascii) : Prop := (ord c < 32 /\ ord c <> 9 /\ ord c <> 10) \/ ord c = 127.
(** [cleaned s t]: [t] is [s] without the ignored characters. *)
Inductive cleaned : bytes -> bytes -> Prop :=
| cl_nil : cleaned [] []
| cl_drop c s t : ignored c -> cleaned s t -> cleaned (c :: s) t
| cl_keep c s t : ~ ignored c -> cleaned s t -> cleaned (c :: s) (c :: t).

(** A line: it ends in a newline and has no other. *)
Definition line (l : bytes) : Prop := exists t, l = t ++ [char_lf] /\ ~ In char_lf t.
Definition no_newline (l : bytes) : Prop := ~ In char_lf l.

(** Nothing to see: only ignored characters, spaces, tabs and newlines. *)
Definition blank (l : bytes) : Prop := Forall (fun c => ignored c \/ c = char_sp \/ c = char_tab \/ c = char_lf) l.
(** Nothing at all in a line: only ignored characters, and the newline. *)
Definition empty (l : bytes) : Prop := cleaned l [char_lf].

(** The lines of a response that has begun: the first has something to see, none is empty. *)
Definition begun (ls : list bytes) : Prop :=
  Forall line ls /\ Forall (fun l => ~ empty l) ls /\ match ls with [] => False | l :: _ => ~ blank l end.

(** What the (cleaned) lines of a response mean: '=' or '?', then spaces and tabs that are ignored,
    then the text, of which white space at the end is ignored and tabs count as spaces. *)
Definition blanks (s : bytes) : Prop := Forall (fun c => c = char_sp \/ c = char_tab) s.
Definition white (s : bytes) : Prop := Forall (fun c => is_space c = true) s.
Definition ends_in_ink (s : bytes) : Prop := forall r d, s = r ++ [d] -> is_space d = false.
Definition untabbed (s t : bytes) : Prop := Forall2 (fun c d => d = if ceqb c char_tab then char_sp else c) s t.
Inductive means : list bytes -> outcome -> Prop :=
| me_response c r more lead text trail shown :
    c = "="%char \/ c = "?"%char -> r ++ List.concat more = lead ++ text ++ trail ->
    blanks lead -> (forall d u, text ++ trail = d :: u -> d <> char_sp /\ d <> char_tab) ->
    white trail -> ends_in_ink text -> untabbed text shown ->
    means ((c :: r) :: more) (Got (ceqb c "?"%char) shown)
| me_neither c r more first trail : c <> "="%char -> c <> "?"%char ->
    c :: r = first ++ trail -> white trail -> ends_in_ink first ->
    means ((c :: r) :: more)
      (Failed (Protocol (str "no success/failure indication from engine: first line is `" ++ first ++ str "`"))).

(** [answers e s o rest]: reading a response from [s] (which ends as [e] says) gives [o] and leaves
    [rest]. *)
Inductive answers (e : ending) : bytes -> outcome -> bytes -> Prop :=
(** Lines with nothing to see, the response, an empty line. *)
| an_response bs ls last rest ts o :
    Forall line bs -> Forall blank bs -> begun ls -> line last -> empty last ->
    Forall2 cleaned ls ts -> means ts o ->
    answers e (List.concat bs ++ List.concat ls ++ last ++ rest) o rest
(** The output ends within the response. *)
| an_cut_short bs ls tail ts o : e = Eof ->
    Forall line bs -> Forall blank bs -> no_newline tail -> begun ls \/ (ls = [] /\ ~ blank tail) ->
    Forall2 cleaned (ls ++ [tail]) ts -> means ts o ->
    answers e (List.concat bs ++ List.concat ls ++ tail) o []
(** The output ends before there is a response. *)
| an_closed s : e = Eof -> blank s ->
    answers e s (Failed (Closed (str "engine has closed the response channel"))) []
(** There is no more to read, though the output has not ended. *)
| an_stuck bs ls tail f :
    Forall line bs -> Forall blank bs -> no_newline tail -> begun ls \/ ls = [] ->
    (e = Silence /\ f = Waits \/ exists t, e = Broken t /\ f = Transport t) ->
    answers e (List.concat bs ++ List.concat ls ++ tail) (Failed f) [].

(** Programs that don't speak GTP are found out from the first byte. *)
Definition plausible (c : ascii) : Prop :=
  c = char_sp \/ c = char_tab \/ c = char_cr \/ c = char_lf \/ c = "#"%char \/ c = "="%char \/ c = "?"%char.
