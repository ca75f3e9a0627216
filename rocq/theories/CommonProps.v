(** Property theorems for gomill/common.py, handicap_layout.py and ascii_boards.py
    (C07 - C09). *)
From Verif Require Import Base Bytes PyStr BoardModel BoardSpec BoardProps CommonModel CommonSpec CommonProofs DiagramProofs.

(** C07.  A diagram of any board is read back as the same position, on a new board or on a
    given empty one, whatever the order of the sets inside [play]. *)
Theorem C07_diagram_roundtrip :
  forall pick s b given, 2 <= s <= 25 -> reachable s b ->
  match given with None => True | Some b0 => reachable s b0 /\ is_empty b0 = true end ->
  exists text b', render_board b = Ok text /\ interpret_diagram pick text s given = Ok b' /\
    reachable s b' /\ same_on s (view b') (view b).
Proof. exact C07_proof. Qed.
Print Assumptions C07_diagram_roundtrip.

(** A given board is only accepted if it is empty and has the right size. *)
Theorem C07_given_board_checked :
  forall pick text s b, side b <> s \/ is_empty b = false ->
  interpret_diagram pick text s (Some b) = Err ValueError.
Proof.
  intros pick text s b H. unfold interpret_diagram.
  destruct (Z.eqb_spec (side b) s); [|reflexivity].
  destruct H as [H|H]; [congruence|]. rewrite H. reflexivity.
Qed.
Print Assumptions C07_given_board_checked.

Example C07_example :
  exists t, render_board ex_ko = Ok t /\ split_on char_lf t =
    [str "5  .  .  .  .  ."; str "4  .  .  .  .  ."; str "3  .  #  o  .  .";
     str "2  #  o  .  o  ."; str "1  .  #  o  .  ."; str "   A  B  C  D  E"].
Proof. eexists. split; vm_compute; reflexivity. Qed.

(** C08. *)
Theorem C08_vertex_roundtrip :
  forall m size s, 1 <= size <= 25 ->
  match m with None => True | Some p => on_board size p end ->
  format_vertex m = Ok s -> move_from_vertex s size = Ok m.
Proof. exact vertex_roundtrip. Qed.
Print Assumptions C08_vertex_roundtrip.

(** Exactly the points of a 25x25 board (and pass) can be formatted. *)
Theorem C08_format_vertex_domain :
  forall m, (exists s, format_vertex m = Ok s) <->
            match m with None => True | Some p => on_board 25 p end.
Proof. exact format_vertex_ok. Qed.
Print Assumptions C08_format_vertex_domain.

(** Whatever the string: a point on the board, a pass, or ValueError. *)
Theorem C08_never_off_the_board :
  forall v size,
  move_from_vertex v size = Err ValueError \/
  (1 <= size <= 25 /\
   (move_from_vertex v size = Ok None /\ map lower_char v = str "pass" \/
    exists p, move_from_vertex v size = Ok (Some p) /\ on_board size p)).
Proof. exact move_from_vertex_total. Qed.
Print Assumptions C08_never_off_the_board.

(** Which strings denote which point: a column letter in either case, then anything
    that Python's int() reads as the row number. *)
Theorem C08_vertices_exactly :
  forall v size r c,
  move_from_vertex v size = Ok (Some (r, c)) <->
  1 <= size <= 25 /\ 0 <= r < size /\ c < size /\
  exists l rest, v = l :: rest /\ map lower_char v <> str "pass" /\ names_column l c /\
    py_int (map lower_char rest) = Ok (r + 1).
Proof. exact move_from_vertex_some. Qed.
Print Assumptions C08_vertices_exactly.

Theorem C08_case_does_not_matter :
  forall v w size, map lower_char v = map lower_char w ->
  move_from_vertex v size = move_from_vertex w size.
Proof. exact move_from_vertex_case. Qed.
Print Assumptions C08_case_does_not_matter.

Example C08_example :
  format_vertex (Some (18, 8)) = Ok (str "J19") /\
  move_from_vertex (str "j19") 19 = Ok (Some (18, 8)) /\
  move_from_vertex (str "I5") 19 = Err ValueError /\
  move_from_vertex (str "a20") 19 = Err ValueError /\
  move_from_vertex (str "PASS") 9 = Ok None /\
  move_from_vertex (str "c 3") 9 = Ok (Some (2, 2)).
Proof. vm_compute. repeat split. Qed.

(** C09. *)
Theorem C09_handicap_layouts :
  forall n size pts, handicap_points n size = Ok pts ->
  8 <= size <= 25 /\ 2 <= n <= 9 /\ (Z.even size = true -> n <= 4) /\
  Z.of_nat (List.length pts) = n /\ NoDup pts /\
  (forall p, In p pts -> on_board size p /\ 2 <= fst p <= size - 3 /\ 2 <= snd p <= size - 3) /\
  (n <> 3 -> forall p, In p pts -> In (half_turn size p) pts) /\
  pts = gtp_handicap n size.
Proof. exact handicap_points_ok. Qed.
Print Assumptions C09_handicap_layouts.

(** A ValueError exactly when the number of stones is outside 2 .. the maximum. *)
Theorem C09_handicap_domain :
  forall n size,
  (size <= 25 -> exists m, max_fixed_handicap size = Ok m /\
     (m = 0 \/ m = 4 \/ m = 9) /\
     (handicap_points n size = Err ValueError <-> ~ (2 <= n <= m)) /\
     (2 <= n <= m -> exists pts, handicap_points n size = Ok pts)) /\
  (25 < size -> max_fixed_handicap size = Err ValueError /\ handicap_points n size = Err ValueError).
Proof.
  intros n size. rewrite handicap_points_spec, max_fixed_spec. split; intros H.
  - replace (25 <? size) with false by lia. replace (size <=? 25) with true by lia. cbn [andb].
    destruct (Z.leb_spec size 7).
    + exists 0. replace (8 <=? size) with false by lia. cbn [andb]. repeat split; auto; lia.
    + replace (8 <=? size) with true by lia. cbn [andb].
      destruct (Z.even size); [exists 4|exists 9]; (split; [reflexivity|]; split; [lia|]);
        match goal with |- context [if ?x then _ else _] => destruct x eqn:E end;
        (split; [split; [try discriminate|]; intros; try lia; try reflexivity|]); intros; try lia; eauto.
  - replace (size <=? 7) with false by lia. replace (25 <? size) with true by lia.
    replace (size <=? 25) with false by lia. auto.
Qed.
Print Assumptions C09_handicap_domain.

(** From four stones on, all four corners are used. *)
Theorem C09_larger_layouts_contain_the_corners :
  forall n size pts c4, 4 <= n -> handicap_points n size = Ok pts -> handicap_points 4 size = Ok c4 ->
  incl c4 pts.
Proof.
  intros n size pts c4 Hn H1 H2.
  apply handicap_points_ok in H1. apply handicap_points_ok in H2.
  destruct H1 as (_ & N1 & _ & _ & _ & _ & _ & ->). destruct H2 as (_ & _ & _ & _ & _ & _ & _ & ->).
  unfold gtp_handicap, gtp_layout.
  destruct (Z.eqb_spec n 2); [lia|]. destruct (Z.eqb_spec n 3); [lia|]. simpl (4 =? 2).
  simpl (4 =? 3). simpl (4 =? 4). cbv iota.
  repeat match goal with |- context [if n =? ?x then _ else _] => destruct (n =? x) end;
    try apply incl_refl; apply incl_appl, incl_refl.
Qed.
Print Assumptions C09_larger_layouts_contain_the_corners.

Example C09_example :
  handicap_points 5 19 = Ok [(3, 3); (15, 15); (15, 3); (3, 15); (9, 9)] /\
  handicap_points 5 18 = Err ValueError /\ handicap_points 2 7 = Err ValueError.
Proof. vm_compute. auto. Qed.
