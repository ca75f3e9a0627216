(** Property theorems for game records (C57): gomill/gameplay.py make_sgf, and the accessors of gomill/sgf.py. *)
From Coq Require Import QArith.
From Verif Require Import Base Bytes PyStr Dict BoardModel BoardSpec CommonModel SgfGrammarModel SgfGrammarSpec
  SgfPropsModel SgfPropsSpec SgfValueSpec SgfTreeModel SgfTreeSpec SgfMovesModel GameplayModel GameplaySpec
  GameSgfModel GameSgfSpec SgfChainProofs GameSgfProofs GameSgfDocProofs GameSgfReadProofs GameSgfMainProofs.
Open Scope Z_scope.

(** For every runner (in whatever state: before, during or after a game, or after a failure) whose
    attributes can be written at all, [make_sgf] succeeds and makes a new game that displays
    [the_game]: a root with exactly the properties it should have, and one node for each move,
    with the comment that goes with it.  Nothing else changes. *)
Theorem C57_record :
  forall version today r w, recordable r -> is_utf8 version -> is_utf8 today -> reachable_world w ->
  exists w' nodes, make_sgf version today r w = (w', Ok tt) /\ reachable_world w' /\ undisturbed w w' /\
    displays (the_game version today r) w' (List.length (w_games w)) (new_sgf (ru_size r) w) nodes.
Proof. exact record_proof. Qed.
Print Assumptions C57_record.

(** Any document that a game displays is saved, for every line length; and the file, when it is
    loaded anywhere, displays the same document. *)
Theorem C57_saved :
  forall d w i g nodes wrap, reachable_world w -> displays d w i g nodes ->
  g_pres g = new_presenter (g_size g) UTF_8 ->
  Forall (fun c => dget [] (ct_props c) = None) (fst d :: snd d) ->
  exists out, serialise_game w g wrap = Ok out /\
    forall w0, reachable_world w0 -> exists w1 g' nodes',
      load_string w0 out UTF_8 false = (w1, Ok tt) /\ displays d w1 (List.length (w_games w0)) g' nodes' /\
      g_size g' = g_size g /\ undisturbed w0 w1 /\ reachable_world w1 /\ g_pres g' = new_presenter (g_size g') UTF_8.
Proof. exact saved_proof. Qed.
Print Assumptions C57_saved.

(** ... in particular the record of a game. *)
Theorem C57_record_saved :
  forall version today r w wrap, recordable r -> is_utf8 version -> is_utf8 today -> reachable_world w ->
  exists w' out, make_sgf version today r w = (w', Ok tt) /\
    serialise_game w' (new_sgf (ru_size r) w) wrap = Ok out /\
    forall w0, reachable_world w0 -> exists w1 g' nodes',
      load_string w0 out UTF_8 false = (w1, Ok tt) /\ g_size g' = ru_size r /\ undisturbed w0 w1 /\
      reachable_world w1 /\ g_pres g' = new_presenter (g_size g') UTF_8 /\
      displays (the_game version today r) w1 (List.length (w_games w0)) g' nodes'.
Proof.
  intros version today r w wrap RC UV UT R. destruct (record_proof version today r w RC UV UT R) as (w' & nodes & E & R' & _ & D).
  destruct (saved_proof _ _ _ _ _ wrap R' D (new_sgf_pres _ _) (game_named version today r)) as (out & S & L).
  exists w', out. split; [exact E|]. split; [exact S|]. intros w0 R0. destruct (L w0 R0) as (w1 & g' & nodes' & A & B & C & U1 & R1 & P1).
  exists w1, g', nodes'. repeat (split; [assumption|]). exact B.
Qed.
Print Assumptions C57_record_saved.

(** Reading: a displayed game that starts with black stones (not covering the whole board) and
    goes on with moves is read by [get_setup_and_moves] as exactly those stones and those moves. *)
Theorem C57_read_back :
  forall pick d w i g nodes stones moves, reachable_world w -> displays d w i g nodes ->
  g_pres g = new_presenter (g_size g) UTF_8 -> 2 <= g_size g -> plays d stones moves ->
  Z.of_nat (List.length stones) < g_size g * g_size g ->
  exists b, get_setup_and_moves pick w g None = (Some b, Ok moves) /\ reachable (g_size g) b /\
    forall p, on_board (g_size g) p -> (In p stones -> view b p = Some Black) /\ (~ In p stones -> view b p = None).
Proof.
  intros pick d w i g nodes stones moves R D P S PL L. destruct (free_point (g_size g) stones ltac:(lia) L) as (e & OE & NE).
  exact (read_proof pick d w i g nodes stones moves e R D P S PL OE NE).
Qed.
Print Assumptions C57_read_back.
Theorem C57_record_plays :
  forall version today r, plays (the_game version today r) (stones_list (ru_stones r)) (moves_only (ru_moves r)).
Proof. exact game_plays. Qed.
Print Assumptions C57_record_plays.

(** What the accessors say of a displayed document. *)
Theorem C57_accessors :
  forall d w i g nodes, displays d w i g nodes ->
  (forall m k, dget (str "KM") (ct_props (fst d)) = Some (PT_real, VReal m k) ->
     get_komi w g = Ok (if Z.abs m * 10000 <? 10 ^ Z.of_nat k then (0, O) else (m, k))) /\
  (forall o, dget (str "HA") (ct_props (fst d)) = option_map (fun n => (PT_number, VInt n)) o ->
     get_handicap w g = match o with None | Some 0 => Ok None | Some 1 => Err ValueError | Some n => Ok (Some n) end) /\
  (forall o, dget (str "RE") (ct_props (fst d)) = option_map (fun s => (PT_simpletext, VText s)) o ->
     get_winner w g = Ok (match o with
                          | Some (c :: _) => if ceqb (lower_char c) "b"%char then Some Black
                                             else if ceqb (lower_char c) "w"%char then Some White else None
                          | _ => None
                          end)) /\
  (forall c o, dget (match c with Black => str "PB" | White => str "PW" end) (ct_props (fst d)) =
       option_map (fun s => (PT_simpletext, VText s)) o ->
     match o with
     | None => get_player_name w g c = Ok None
     | Some s => exists t, get_player_name w g c = Ok (Some t) /\ simpletext_norm s t
     end).
Proof.
  intros d w i g nodes D. split; [exact (fun m k => komi_proof d w i g nodes m k D)|].
  split; [exact (fun o => handicap_proof d w i g nodes o D)|]. split; [exact (fun o => winner_proof d w i g nodes o D)|].
  exact (fun c o => name_proof d w i g nodes c o D).
Qed.
Print Assumptions C57_accessors.

(** A game played by any two players (any backend), whether it was completed or broken off: its
    record can be made; read back it is a legal game from the position the game started from, with
    exactly the moves that were made; and the winner it names is the winner of the game. *)
Theorem C57_played_game :
  forall (S : Type) (B : backend S) pick fuel r s r' s' out size limit stones version today w,
  2 <= size <= 25 -> ready r size limit stones -> (forall p, In p (stones_list stones) -> on_board size p) ->
  komi_ok (ru_komi r) -> Z.of_nat (List.length (stones_list stones)) < size * size ->
  run B fuel pick r s = (r', s', out) ->
  (forall m c, In (m, Some c) (ru_moves r') -> is_utf8 c) -> (forall c m, ru_final r' = Some (c, m) -> is_utf8 m) ->
  is_utf8 version -> is_utf8 today -> reachable_world w ->
  exists w' nodes, make_sgf version today r' w = (w', Ok tt) /\ reachable_world w' /\ undisturbed w w' /\
    let g := new_sgf size w in
    displays (the_game version today r') w' (List.length (w_games w)) g nodes /\
    get_winner w' g = Ok (match ru_result r' with Some x => r_winner x | None => None end) /\
    exists b pos, get_setup_and_moves pick w' g None = (Some b, Ok (moves_only (ru_moves r'))) /\
      starting_position size stones pos /\ same_on size (view b) pos /\
      record_is_legal size limit pos (first_player stones) (ru_moves r').
Proof. exact @played_proof. Qed.
Print Assumptions C57_played_game.

(** ** Examples *)

Definition demo_runner : runner :=
  mkRunner 9 (75, 1%nat) None (Some 2) (Some [(2, 2); (6, 6)])
    [(White, Some (4, 4), Some (str "joseki")); (Black, None, None); (White, Some (3, 3), None)]
    (Some (Black, str "I give up")) None (Some (mkResult (Some White) false false (str "W+R") None)) 3.
Definition demo_world : world := mkW [] [].
Definition demo_out : outcome := make_sgf (str "0.8") (str "2012-01-02") demo_runner demo_world.
Definition demo_text : bytes :=
  match serialise_game (fst demo_out) (new_sgf 9 demo_world) (Some 79) with Ok s => s | Err _ => [] end.

Example C57_demo_recordable : recordable demo_runner /\ reachable_world demo_world.
Proof.
  split; [|constructor]. constructor.
  - cbn. lia.
  - split; [cbn; lia|]. right. cbn. lia.
  - intros x E. injection E as <-. apply ascii_utf8. reflexivity.
  - repeat constructor; cbn; lia.
  - cbn [ru_moves ru_size demo_runner]. repeat (apply Forall_cons; [intros p E; cbn in E; try discriminate; injection E as <-; split; cbn; lia|]).
    apply Forall_nil.
  - intros m c I. cbn [demo_runner ru_moves In] in I. destruct I as [I|[I|[I|[]]]]; try discriminate.
    assert (c = str "joseki") as -> by congruence. apply ascii_utf8. reflexivity.
  - intros c m E. assert (m = str "I give up") as -> by (cbn [demo_runner ru_final] in E; congruence). apply ascii_utf8. reflexivity.
Qed.

Example C57_demo :
  snd demo_out = Ok tt /\
  demo_text = str "(;FF[4]AB[cg][gc]AP[gomill:0.8]CA[UTF-8]DT[2012-01-02]GM[1]HA[2]KM[7.5]RE[W+R]" ++ [char_lf] ++
              str "SZ[9];C[joseki]W[ee];B[tt];C[final message from b: <<<" ++ [char_lf] ++
              str "I give up" ++ [char_lf] ++ str ">>>]W[df])" ++ [char_lf].
Proof. vm_compute. split; reflexivity. Qed.
Example C57_demo_read :
  get_winner (fst demo_out) (new_sgf 9 demo_world) = Ok (Some White) /\
  get_handicap (fst demo_out) (new_sgf 9 demo_world) = Ok (Some 2) /\
  get_komi (fst demo_out) (new_sgf 9 demo_world) = Ok (75, 1%nat) /\
  snd (get_setup_and_moves (fun _ => O) (fst demo_out) (new_sgf 9 demo_world) None) =
    Ok [(White, Some (4, 4)); (Black, None); (White, Some (3, 3))].
Proof. vm_compute. repeat split; reflexivity. Qed.

(** A game without moves: the final message goes into the root. *)
Example C57_demo_no_moves :
  let r := mkRunner 5 (0, O) None None None [] (Some (White, str "bye")) None None 3 in
  let o := make_sgf (str "0.8") (str "2012-01-02") r demo_world in
  snd o = Ok tt /\ get_prop (fst o) 0 (str "C") = Ok (VText (last_words White (str "bye"))).
Proof. vm_compute. split; reflexivity. Qed.

(** Why the comments have to be UTF-8: the record of a game with a final message cannot be made
    if the last comment is not. *)
Example C57_demo_bad_comment :
  let r := mkRunner 5 (0, O) None None None [(Black, None, Some ["255"%char])] (Some (White, str "bye")) None None 3 in
  snd (make_sgf (str "0.8") (str "2012-01-02") r demo_world) = Err ValueError.
Proof. vm_compute. reflexivity. Qed.
