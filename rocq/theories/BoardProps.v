(** Property theorems for gomill/boards.py (C01 - C06). *)
From Verif Require Import Base BoardModel BoardSpec BoardProofs BoardPlayProofs BoardMainProofs.

(** Concrete boards used to show that the hypotheses below can be met. *)
Definition pick0 : nat -> nat := fun _ => 0%nat.
Definition empty5 : board :=
  match new_board 5 with Ok b => b | Err _ => mkBoard 0 [] false end.
Definition ex_setup : board_op :=
  OpSetup [(1, 0); (0, 1); (2, 1)] [(1, 1); (0, 2); (2, 2); (1, 3)] [].
Definition ex_ko : board := apply_op pick0 empty5 ex_setup.

Example ex_ko_reachable : reachable 5 ex_ko /\ on_board 5 (1, 2) /\ view ex_ko (1, 2) = None.
Proof.
  split; [|split]; [|unfold on_board; simpl; lia|vm_compute; reflexivity].
  apply reach_op. apply reach_new. vm_compute. reflexivity.
Qed.

(** C01. A successful play follows the rules of Go. *)

Theorem C01_play_follows_the_rules :
  forall pick s b p c,
    reachable s b -> on_board s p -> view b p = None ->
    exists b' ko, play pick b (fst p) (snd p) c = (b', Ok ko) /\
                  go_move s (view b) p c (view b').
Proof. exact C01_proof. Qed.
Print Assumptions C01_play_follows_the_rules.

(** The rules determine the outcome, so [go_move] pins the position down. *)
Theorem C01_rules_deterministic :
  forall s pos p c pa pb,
    go_move s pos p c pa -> go_move s pos p c pb -> same_on s pa pb.
Proof. exact go_move_det. Qed.
Print Assumptions C01_rules_deterministic.

(** Every legal position is covered by the theorems about reachable boards. *)

Theorem C01_every_legal_position_reachable :
  forall s pos, 2 <= s -> legal s pos -> exists b, reachable s b /\ same_on s (view b) pos.
Proof. exact legal_reachable0. Qed.
Print Assumptions C01_every_legal_position_reachable.

(** The unspecified order of Python's set.pop() never shows. *)

Theorem C01_set_order_irrelevant :
  forall pick pick' s b r col c,
    reachable s b -> play pick b r col c = play pick' b r col c.
Proof. exact pick_irrelevant_proof. Qed.
Print Assumptions C01_set_order_irrelevant.

(** The example move captures the white stone at (1,1). *)
Example C01_example :
  view (fst (play pick0 ex_ko 1 2 Black)) (1, 1) = None /\
  view ex_ko (1, 1) = Some White.
Proof. split; vm_compute; reflexivity. Qed.

(** C02. *)

Theorem C02_always_legal_and_emptiness_exact :
  forall s b,
    reachable s b ->
    side b = s /\ legal s (view b) /\
    (is_empty b = true <-> forall p, on_board s p -> view b p = None).
Proof. exact C02_proof. Qed.
Print Assumptions C02_always_legal_and_emptiness_exact.

(** An empty board can come back after a whole-board self-capture. *)
Example C02_example :
  let b0 := match new_board 2 with Ok b => b | Err _ => empty5 end in
  let b1 := apply_op pick0 b0 (OpSetup [(0,0);(0,1);(1,0)] [] []) in
  let b2 := apply_op pick0 b1 (OpPlay 1 1 Black) in
  is_empty b1 = false /\ is_empty b2 = true.
Proof. vm_compute. split; reflexivity. Qed.

(** C03. *)

Theorem C03_play_errors :
  forall pick s b r col c,
    reachable s b ->
    (snd (play pick b r col c) = Err IndexError <-> ~ on_board s (r, col)) /\
    (snd (play pick b r col c) = Err ValueError <->
       on_board s (r, col) /\ view b (r, col) <> None) /\
    (forall e, snd (play pick b r col c) = Err e ->
       (e = IndexError \/ e = ValueError) /\ fst (play pick b r col c) = b).
Proof. exact C03_play_proof. Qed.
Print Assumptions C03_play_errors.

Theorem C03_get_errors :
  forall s b r col,
    reachable s b ->
    (on_board s (r, col) -> exists v, get b r col = Ok v) /\
    (~ on_board s (r, col) -> get b r col = Err IndexError).
Proof. exact C03_get_proof. Qed.
Print Assumptions C03_get_errors.

Theorem C03_setup_errors :
  forall pick s b bl wh em,
    reachable s b ->
    ((forall p, In p (bl ++ wh ++ em) -> on_board s p) ->
       exists b' f, apply_setup pick b bl wh em = (b', Ok f)) /\
    (~ (forall p, In p (bl ++ wh ++ em) -> on_board s p) ->
       apply_setup pick b bl wh em = (b, Err IndexError)).
Proof. exact C03_setup_proof. Qed.
Print Assumptions C03_setup_errors.

Example C03_examples :
  snd (play pick0 ex_ko (-1) 0 Black) = Err IndexError /\
  snd (play pick0 ex_ko 0 5 Black) = Err IndexError /\
  snd (play pick0 ex_ko 0 1 Black) = Err ValueError.
Proof. vm_compute. auto. Qed.

(** C04. *)

Theorem C04_simple_ko_point_exact :
  forall pick s b p c b' ko,
    reachable s b -> on_board s p -> view b p = None ->
    play pick b (fst p) (snd p) c = (b', Ok ko) ->
    forall k, ko = Some k <-> simple_ko s (view b) p c (view b') k.
Proof. exact C04_proof. Qed.
Print Assumptions C04_simple_ko_point_exact.

Theorem C04_retaking_restores_the_position :
  forall pick s b p c b' k,
    reachable s b -> on_board s p -> view b p = None ->
    play pick b (fst p) (snd p) c = (b', Ok (Some k)) ->
    view b' k = None /\
    play pick b' (fst k) (snd k) (opponent_of c) = (b, Ok (Some p)).
Proof. exact C04_retake_proof. Qed.
Print Assumptions C04_retaking_restores_the_position.

Example C04_example : snd (play pick0 ex_ko 1 2 Black) = Ok (Some (1, 1)).
Proof. vm_compute. reflexivity. Qed.

(** C05. *)

Theorem C05_apply_setup :
  forall pick s b bl wh em,
    reachable s b -> (forall p, In p (bl ++ wh ++ em) -> on_board s p) ->
    exists b' legal_flag,
      apply_setup pick b bl wh em = (b', Ok legal_flag) /\
      clears_all s (setup_position (view b) bl wh em) (view b') /\
      (legal_flag = true <-> legal s (setup_position (view b) bl wh em)).
Proof. exact C05_proof. Qed.
Print Assumptions C05_apply_setup.

Example C05_example :
  snd (apply_setup pick0 empty5 [(0,0)] [(0,1);(1,0)] []) = Ok false /\
  snd (apply_setup pick0 empty5 [(0,0)] [(0,1)] []) = Ok true.
Proof. vm_compute. auto. Qed.

(** C06. *)

Theorem C06_area_score :
  forall pick s b,
    reachable s b -> exists sc, area_score pick b = Ok sc /\ area_score_spec s (view b) sc.
Proof. exact C06_proof. Qed.
Print Assumptions C06_area_score.

Theorem C06_spec_determines_score :
  forall s pos a b, area_score_spec s pos a -> area_score_spec s pos b -> a = b.
Proof. exact area_score_spec_unique. Qed.
Print Assumptions C06_spec_determines_score.

Example C06_example :
  area_score pick0 ex_ko = Ok (-1) /\ area_score pick0 empty5 = Ok 0 /\
  area_score pick0 (apply_op pick0 empty5 (OpPlay 2 2 Black)) = Ok 25.
Proof. vm_compute. auto. Qed.

(** Copies and listings agree with the board (part of C02's interface). *)

Theorem C02_copy_equal : forall s b, reachable s b -> copy b = Ok b.
Proof. exact copy_proof. Qed.
Print Assumptions C02_copy_equal.

Theorem C02_list_occupied_points :
  forall s b, reachable s b ->
  NoDup (list_occupied_points b) /\
  forall c p, In (c, p) (list_occupied_points b) <-> on_board s p /\ view b p = Some c.
Proof. exact occupied_proof. Qed.
Print Assumptions C02_list_occupied_points.
