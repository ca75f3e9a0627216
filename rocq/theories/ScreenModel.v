(** Model of gomill/ringmaster_presenters.py:105-178: everything that the Clearing_presenter writes
    to standard output, including how it clears the screen. *)
From Verif Require Import Base Bytes PyStr RingModel RunLogModel.
Open Scope Z_scope.

(** ringmaster_presenters.py:159-174 [clear_method]. *)
Inductive clearing : Type := ByCommand | ByNewlines | ByDelimiter.
Record clearer : Type := mkClearer { k_boxes : boxes; k_method : option clearing }.
(** :120-128. *)
Definition new_clearer : clearer := mkClearer no_boxes None.

(** The outside world: whether standard output is known to be a terminal (os.isatty gives True and
    nothing raises); the value of LINES. *)
Record outside : Type := mkOutside { o_tty : bool; o_lines : option bytes }.

(** What the presenter does, as seen from outside. *)
Inductive deed : Type :=
| Wrote (s : bytes)         (* on standard output *)
| RanClear.                 (* ran the command "clear" *)

(** A [print] statement. *)
Definition print (s : bytes) : deed := Wrote (s ++ [char_lf]).

(** :153-178 [screen_height], [clear_screen]; [worked]: whether the command "clear" (if it's run)
    can be run and exits with 0. The sum of a string and an integer raises TypeError. *)
Definition clear_screen (o : outside) (worked : bool) (m : option clearing) : clearing * list deed * option exn :=
  let m1 := match m with None => if o_tty o then ByCommand else ByDelimiter | Some x => x end in
  let '(m2, d) := match m1 with ByCommand => (if worked then ByCommand else ByNewlines, [RanClear]) | _ => (m1, []) end in
  match m2 with
  | ByCommand => (m2, d, None)
  | ByNewlines => match o_lines o with
                  | Some _ => (m2, d, Some TypeError)
                  | None => (m2, d ++ [print (repeat char_lf 81)], None)
                  end
  | ByDelimiter => (m2, d ++ [print (repeat "-"%char 78)], None)
  end.

(** :142-151: one turn of the loop, as the prints that it makes. *)
Definition print_box (heading : option bytes) (limit : nat) (blank : bool) (contents : list bytes) : list deed :=
  match contents with
  | [] => []
  | _ => (match heading with Some h => [print (str "= " ++ h ++ str " = ")] | None => [] end) ++
         [print (join [char_lf] (last_n limit contents))] ++ (if blank then [print []] else [])
  end.

Inductive use : Type := UClear (c : channel) | USay (c : channel) (s : bytes) | URefresh (worked : bool).

(** :130-151 [clear], [say], [refresh]. *)
Definition perform (o : outside) (u : use) (k : clearer) : clearer * list deed * option exn :=
  match u with
  | UClear c => (mkClearer (put_box c [] (k_boxes k)) (k_method k), [], None)
  | USay c s => (mkClearer (put_box c (get_box c (k_boxes k) ++ [s]) (k_boxes k)) (k_method k),
                 match c with Warnings => [print s] | _ => [] end, None)
  | URefresh worked =>
      let '(m, d, e) := clear_screen o worked (k_method k) in
      let k' := mkClearer (k_boxes k) (Some m) in
      match e with
      | Some x => (k', d, Some x)
      | None => (k', d ++ print_box None 999 true (b_status (k_boxes k)) ++
                     print_box None 999 true (b_report (k_boxes k)) ++
                     print_box (Some (str "Results")) 6 true (b_results (k_boxes k)) ++
                     print_box (Some (str "Warnings")) 4 false (b_warnings (k_boxes k)), None)
      end
  end.

(** Any sequence of uses, going on after an exception (as a caller that catches it would). *)
Fixpoint perform_all (o : outside) (us : list use) (k : clearer) : clearer :=
  match us with [] => k | u :: us => let '(k', _, _) := perform o u k in perform_all o us k' end.

(** :58-76 [get_stream], [_Channel_writer]: the text collected so far; [close] says it. *)
Definition stream_write (s collected : bytes) : bytes := collected ++ s.
Definition stream_close (o : outside) (c : channel) (collected : bytes) (k : clearer) : clearer * list deed * option exn :=
  perform o (USay c (strip_newline collected)) k.

(** :79-97 [Quiet_presenter]: what appears on standard error, for each use. *)
Definition quiet_perform (u : use) : bytes :=
  match u with USay Warnings s => s ++ [char_lf] | _ => [] end.
