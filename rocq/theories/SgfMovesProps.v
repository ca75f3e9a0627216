(** Property theorems for gomill/sgf_moves.py (C21). *)
From Verif Require Import Base Bytes PyStr Dict BoardModel BoardSpec SgfGrammarModel SgfGrammarSpec CommonModel
  SgfPropsModel SgfTreeModel SgfTreeSpec SgfMovesModel SgfMovesSpec SgfMovesProofs.

(** C21.  With a usable board (or none), the result is the setup position of the root and
    the moves of the main line if the main line is readable, and otherwise ValueError.
    (The condition on types: nobody re-registered AB, AW and AE in the presenter.) *)
Theorem C21_reads_setup_and_moves :
  forall pick w i g t sup, reachable_world w -> game_at w i = Some g -> tree_of w (g_root g) t ->
  (forall b, sup = Some b -> exists s, reachable s b) -> usable (g_size g) sup ->
  (forall k, In k [str "AB"; str "AW"; str "AE"] -> type_of w (g_root g) k PT_point_list) ->
  exists b r, get_setup_and_moves pick w g sup = (Some b, r) /\ reachable (g_size g) b /\
    match r with
    | Ok ms => exists ab aw ae, readable w g t ab aw ae ms /\
                 same_on (g_size g) (view b) (setup_position empty_position ab aw ae)
    | Err e => e = ValueError /\ forall ab aw ae ms, ~ readable w g t ab aw ae ms
    end.
Proof. exact C21_read_proof. Qed.
Print Assumptions C21_reads_setup_and_moves.

(** [readable] determines the setup and the moves. *)
Theorem C21_readable_is_unambiguous :
  forall w g t ab aw ae ms ab' aw' ae' ms',
  readable w g t ab aw ae ms -> readable w g t ab' aw' ae' ms' -> ab = ab' /\ aw = aw' /\ ae = ae' /\ ms = ms'.
Proof. exact readable_fun. Qed.
Print Assumptions C21_readable_is_unambiguous.

(** An unusable board (wrong size, not empty; or size 1 with no board given) is ValueError,
    and is left alone. *)
Theorem C21_unusable_board :
  forall pick w g sup, (forall b, sup = Some b -> exists s, reachable s b) ->
  ~ usable (g_size g) sup -> get_setup_and_moves pick w g sup = (sup, Err ValueError).
Proof. exact C21_unusable_proof. Qed.
Print Assumptions C21_unusable_board.

(** Writing moves into a new game and reading them back. *)
Theorem C21_write_then_read :
  forall pick w size e ms, reachable_world w -> 2 <= size <= 25 ->
  Forall (fun cm => forall p, snd cm = Some p -> on_board size p) ms ->
  exists w1 g w2 b, new_game w size e = (w1, Ok tt) /\ game_at w1 (List.length (w_games w)) = Some g /\
    record_moves w1 g ms = (w2, Ok tt) /\
    get_setup_and_moves pick w2 g None = (Some b, Ok ms) /\ (forall p, on_board size p -> view b p = None).
Proof. exact C21_write_read_proof. Qed.
Print Assumptions C21_write_then_read.

(** [set_initial_position] records exactly the position of the board, as a legal setup. *)
Theorem C21_set_initial_position :
  forall w i g b, reachable_world w -> game_at w i = Some g -> g_size g <= 25 ->
  reachable (g_size g) b ->
  (forall k, In k [str "AB"; str "AW"; str "AE"] -> type_of w (g_root g) k PT_point_list) ->
  exists w' ab aw, set_initial_position w g b = (w', Ok tt) /\
    only_changes w (g_root g) [str "AB"; str "AW"; str "AE"] w' /\
    get_setup_stones w' (g_root g) = Ok (ab, aw, []) /\
    same_on (g_size g) (setup_position empty_position ab aw []) (view b) /\
    legal (g_size g) (setup_position empty_position ab aw []).
Proof. exact C21_initial_position_proof. Qed.
Print Assumptions C21_set_initial_position.

(** [indicate_first_player] sets PL exactly when the first move is not by the expected
    player (White in a handicap game, else Black) or there is other setup. *)
Theorem C21_indicate_first_player :
  forall w i g c ks n first mv, reachable_world w -> game_at w i = Some g -> g_size g <= 25 ->
  type_of w (g_root g) (str "PL") PT_colour ->
  ks = c :: n -> kids_are w (g_root g) ks -> get_move w c = Ok (Some (first, mv)) ->
  (other_setup w (g_root g) \/ first <> expected_first w (g_root g) ->
     exists w', indicate_first_player w g = (w', Ok tt) /\ only_changes w (g_root g) [str "PL"] w' /\
       get_prop w' (g_root g) (str "PL") = Ok (VColour first)) /\
  (~ (other_setup w (g_root g) \/ first <> expected_first w (g_root g)) ->
     indicate_first_player w g = (w, Ok tt)).
Proof. exact C21_first_player_proof. Qed.
Print Assumptions C21_indicate_first_player.

(** ** Concrete games *)
Definition load1 (s : string) : outcome := load_string empty_world (str s) UTF_8 false.
Definition read1 (s : string) : option board * res (list (colour * gmove)) :=
  match load1 s with
  | (w, Ok _) => match game_at w 0 with
                 | Some g => get_setup_and_moves (fun _ => O) w g None
                 | None => (None, Err AttributeError)
                 end
  | (_, Err e) => (None, Err e)
  end.

Example C21_demo_moves :
  snd (read1 "(;SZ[9]AB[aa][bb];W[cc];C[x];B[](;W[ii])(;W[ih]))") =
    Ok [(White, Some (6, 2)); (Black, None); (White, Some (0, 8))] /\
  match fst (read1 "(;SZ[9]AB[aa][bb];W[cc])") with
  | Some b => view b (8, 0) = Some Black /\ view b (7, 1) = Some Black /\ view b (0, 0) = None
  | None => False
  end.
Proof. vm_compute. auto. Qed.

Example C21_demo_errors :
  snd (read1 "(;SZ[9]AB[aa];AW[bb])") = Err ValueError /\        (* setup after the root *)
  snd (read1 "(;SZ[9]AB[aa]W[bb])") = Err ValueError /\          (* move and setup *)
  snd (read1 "(;SZ[9]AB[aa]AW[ab][ba])") = Err ValueError /\     (* no liberties *)
  snd (read1 "(;SZ[9];B[zz])") = Err ValueError /\
  snd (read1 "(;SZ[1];B[])") = Err ValueError.
Proof. vm_compute. auto 6. Qed.

(** A departure from the documentation: a root with AE alone, or with AB[] (no points), is
    reported as setup after the root. *)
Example C21_demo_root_AE :
  snd (read1 "(;SZ[9]AE[aa];B[bb])") = Err ValueError /\ snd (read1 "(;SZ[9]AB[];B[bb])") = Err ValueError.
Proof. vm_compute. auto. Qed.

Definition world1 (s : string) : world := fst (load1 s).
Example C21_demo_first_player :
  let w := world1 "(;SZ[9]HA[2]AB[aa][bb];B[cc])" in
  match game_at w 0 with
  | Some g => kids_are w (g_root g) [1%nat] /\ get_move w 1 = Ok (Some (Black, Some (6, 2))) /\
              expected_first w (g_root g) = White /\
              get_prop (fst (indicate_first_player w g)) (g_root g) (str "PL") = Ok (VColour Black)
  | None => False
  end.
Proof. vm_compute. split; [eexists; split; reflexivity|auto]. Qed.
