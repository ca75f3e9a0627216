(** C37, C38: a GTP engine's game state (gtp_states.py:Gtp_state). *)
From Verif Require Import Base Bytes PyStr Dict BoardModel BoardSpec CommonModel SgfPropsModel SgfTreeModel SgfTreeSpec
  SgfMovesModel SgfMovesSpec GtpModel GtpStateModel GtpStateSpec GtpStateFinalProofs.

(** * C37 *)

(** After any history of commands (whatever the move generators, files and arguments), the
    board is the one the recorded moves lead to, by the rules of Go, from the base
    position. *)
Theorem C37_board_is_the_replay_of_the_history : forall st, served st -> consistent st.
Proof. exact C37_replay_proof. Qed.
Print Assumptions C37_board_is_the_replay_of_the_history.

(** What move generators are told about the ko. *)
Theorem C37_ko_told_to_the_generator : forall st, served st -> ko_right st.
Proof. exact C37_ko_proof. Qed.
Print Assumptions C37_ko_told_to_the_generator.

(** Successful commands have the effect that the GTP specification gives them and no
    other. *)
Theorem C37_commands_do_what_they_say :
  forall env c args st st' r, served st -> handle env c st args = (st', GOk r) -> effect env c args st r st'.
Proof. exact C37_effect_proof. Qed.
Print Assumptions C37_commands_do_what_they_say.

(** A move can be taken back. *)
Theorem C37_undo_takes_a_move_back :
  forall env env' c args args' st st1 r, served st -> In c [Play; Genmove; Genmove_ex] ->
  handle env c st args = (st1, GOk r) -> st_history st1 <> st_history st ->
  exists st2, handle env' Undo st1 args' = (st2, GOk None) /\
    st_board st2 = st_board st /\ info_of st2 = info_of st.
Proof. exact C37_undo_proof. Qed.
Print Assumptions C37_undo_takes_a_move_back.

(** Commands with proper arguments succeed. *)
Theorem C37_commands_succeed :
  forall env st, served st ->
  (forall a rest n, interpret_int a = GOk n -> In n (st_sizes st) ->
     exists st', handle env Boardsize st (a :: rest) = (st', GOk None)) /\
  (forall a v rest c m, interpret_colour a = GOk c -> interpret_vertex v (st_size st) = GOk m -> vacant st m ->
     exists st', handle env Play st (a :: v :: rest) = (st', GOk None)) /\
  (forall a rest c g m, st_size st <= 25 -> interpret_colour a = GOk c ->
     env_gen env (state_for st c false) c = Ok g -> generated_move g m -> vacant st m ->
     exists st' v, format_vertex m = Ok v /\ handle env Genmove st (a :: rest) = (st', GOk (Some v))) /\
  (forall args, st_history st <> [] -> exists st', handle env Undo st args = (st', GOk None)) /\
  (forall a rest n pts, interpret_int a = GOk n -> is_empty (st_board st) = true ->
     handicap_points n (st_size st) = Ok pts -> exists st' r, handle env Fixed_handicap st (a :: rest) = (st', GOk r)) /\
  (forall args pts, is_empty (st_board st) = true ->
     Forall2 (fun a p => interpret_vertex a (st_size st) = GOk (Some p)) args pts -> NoDup pts ->
     2 <= Z.of_nat (List.length pts) <= st_size st * st_size st - 1 ->
     exists st', handle env Set_free_handicap st args = (st', GOk None)) /\
  (forall path rest text e size komi h setup ms n p', env_files env path = Some (text, e) ->
     file_says text e size komi h setup ms -> In size (st_sizes st) ->
     match rest with
     | [] => n = List.length ms
     | a :: _ => exists z, interpret_int a = GOk z /\ n = Z.to_nat (z - 1)
     end ->
     replays size setup (firstn n ms) p' ->
     exists st', handle env Loadsgf st (path :: rest) = (st', GOk None)).
Proof. exact C37_succeed_proof. Qed.
Print Assumptions C37_commands_succeed.

(** Whatever has happened before (even a failed loadsgf), clear_board and boardsize start a
    new game. *)
Theorem C37_a_new_game_can_always_be_started :
  forall env st, served_any st ->
  (forall args, exists st', handle env Clear_board st args = (st', GOk None) /\ new_game_on (st_size st) st st' /\ consistent st') /\
  (forall a rest n, interpret_int a = GOk n -> In n (st_sizes st) ->
     exists st', handle env Boardsize st (a :: rest) = (st', GOk None) /\ new_game_on n st st' /\ consistent st').
Proof. exact C37_restart_proof. Qed.
Print Assumptions C37_a_new_game_can_always_be_started.

(** What move generators learn about the opponent's last move: it is available exactly when
    the last recorded move is the opponent's, and the cookie is that of the move before if
    that was the player's own. *)
Theorem C37_last_move :
  forall hs player,
  (forall l h, hs = l ++ [h] -> h_colour h = opponent_of player ->
     get_last_move hs player = (true, h_move h)) /\
  (~ (exists l h, hs = l ++ [h] /\ h_colour h = opponent_of player) -> get_last_move hs player = (false, None)) /\
  get_last_move hs player = fst (get_last_move_and_cookie hs player) /\
  (forall l h0 h, hs = l ++ [h0; h] -> h_colour h = opponent_of player -> h_colour h0 = player ->
     snd (get_last_move_and_cookie hs player) = h_cookie h0) /\
  (~ (exists l h0 h, hs = l ++ [h0; h] /\ h_colour h = opponent_of player /\ h_colour h0 = player) ->
     snd (get_last_move_and_cookie hs player) = None).
Proof. exact C37_last_move_proof. Qed.
Print Assumptions C37_last_move.

(** ** The hypotheses are met *)

Definition point_gen (p : option point) : generator := fun _ _ => Ok (mkGen false false p false None None).
Definition env0 (g : generator) (fs : files) : surroundings := mkEnv (fun _ => O) g fs.
Definition no_files : files := fun _ => None.

(** Run commands; the results and the state. *)
Fixpoint run (st : gstate) (l : list (surroundings * command * list bytes)) : gstate * list (gres (option bytes)) :=
  match l with
  | [] => (st, [])
  | (env, c, args) :: l' =>
      let '(st1, r) := handle env c st args in
      let '(st2, rs) := run st1 l' in (st2, r :: rs)
  end.

Lemma run_served l : forall st, served st -> (forall x, In x l -> snd (fst x) <> Loadsgf) -> served (fst (run st l)).
Proof.
  induction l as [|[[env c] args] l IH]; intros st S H; cbn [run fst]; [exact S|].
  destruct (handle env c st args) as [st1 r] eqn:E.
  specialize (IH st1). destruct (run st1 l) as [st2 rs]. apply IH.
  - eapply sv_command; [exact S|exact E|]. intros ->. exfalso. eapply H; [left; reflexivity|]. reflexivity.
  - intros x Hx. apply H. right. exact Hx.
Qed.

Lemma run_served_any l : forall st, served_any st -> served_any (fst (run st l)).
Proof.
  induction l as [|[[env c] args] l IH]; intros st S; cbn [run fst]; [exact S|].
  destruct (handle env c st args) as [st1 r] eqn:E. specialize (IH st1). destruct (run st1 l) as [st2 rs]. apply IH.
  eapply sa_command; [exact S|exact E].
Qed.

Definition dummy_board : board := mkBoard 0 [] true.
Definition st0 : gstate :=
  match new_state (Some [9; 19]) with
  | Ok st => st
  | Err _ => mkS [] 0 dummy_board None None None dummy_board [] (0, O) None (None, None) (None, None)
  end.
Lemma st0_served : served st0.
Proof. apply (sv_new (Some [9; 19])). vm_compute. reflexivity. Qed.

Definition at_ (row col : Z) : surroundings := env0 (point_gen (Some (row, col))) no_files.
Definition gen_passes : surroundings := env0 (fun _ _ => Ok (mkGen false true None false None None)) no_files.
Definition ev : surroundings := gen_passes.
Local Open Scope string_scope.
Local Open Scope list_scope.
Local Open Scope Z_scope.
Definition w (l : list string) : list bytes := map str l.

(** Black, playing at D1, takes the stone at C1; the generator for White is told of the ko. *)
Definition ko_game : list (surroundings * command * list bytes) :=
  [ (ev, Boardsize, w ["9"]); (ev, Komi, w ["7.5"]);
    (ev, Play, w ["b"; "B1"]); (ev, Play, w ["w"; "E1"]); (ev, Play, w ["b"; "C2"]); (ev, Play, w ["w"; "D2"]);
    (ev, Play, w ["w"; "C1"]); (at_ 0 3, Genmove, w ["b"]) ].

Example C37_demo :
  let '(st, rs) := run st0 ko_game in
  served st /\ forallb (fun r => match r with GOk _ => true | _ => false end) rs = true /\
  moves_made st = [(Black, Some (0, 1)); (White, Some (0, 4)); (Black, Some (1, 2)); (White, Some (1, 3));
                   (White, Some (0, 2)); (Black, Some (0, 3))] /\
  view (st_board st) (0, 2) = None /\
  gs_ko (state_for st White false) = Some (0, 2) /\ gs_ko (state_for st Black false) = None /\
  last rs (GOk None) = GOk (Some (str "D1")) /\
  let '(st2, rs2) := run st [(ev, Undo, []); (ev, Undo, [])] in
  served st2 /\ view (st_board st2) (0, 2) = None /\ List.length (st_history st2) = 4%nat.
Proof.
  assert (served (fst (run st0 ko_game))) as S.
  { apply run_served; [exact st0_served|]. unfold ko_game. cbn [In]. intros x H. repeat destruct H as [<-|H]; try discriminate. contradiction. }
  assert (served (fst (run (fst (run st0 ko_game)) [(ev, Undo, []); (ev, Undo, [])]))) as S2.
  { apply run_served; [exact S|]. cbn [In]. intros x H. repeat destruct H as [<-|H]; try discriminate. contradiction. }
  destruct (run st0 ko_game) as [st rs] eqn:E. cbn [fst] in *. split; [exact S|].
  destruct (run st _) as [st2 rs2] eqn:E2. cbn [fst] in S2.
  change st2 with (fst (st2, rs2)). rewrite <- E2.
  change st with (fst (st, rs)). change rs with (snd (st, rs)) at 1 6. rewrite <- E.
  do 6 (split; [vm_compute; reflexivity|]). split; [|split; vm_compute; reflexivity].
  rewrite E. cbn [fst]. rewrite E2. exact S2.
Qed.

(** A ko is not forgotten when the generator passes (a pass lifts it): the generator for
    White is still told, after Black took a ko and both sides passed, that it may not take
    back.  (A pass with the play command makes the state forget it.) *)
Example C37_stale_ko :
  let '(st, _) := run st0 (ko_game ++ [(gen_passes, Genmove, w ["w"]); (gen_passes, Genmove, w ["b"])]) in
  let '(st', _) := run st0 (ko_game ++ [(gen_passes, Play, w ["w"; "pass"]); (gen_passes, Play, w ["b"; "pass"])]) in
  moves_made st = moves_made st' /\
  gs_ko (state_for st White false) = Some (0, 2) /\ gs_ko (state_for st' White false) = None.
Proof. vm_compute. auto. Qed.

(** After a loadsgf that fails on a file with another size, the size is wrong, and the next
    commands can put stones on the board that the history doesn't explain. *)
Definition bad_file : files := fun _ => Some (str "(;SZ[19];B[aa];W[aa])", UTF_8).
Definition bad_session : list (surroundings * command * list bytes) :=
  [ (env0 (point_gen None) bad_file, Loadsgf, w ["x.sgf"]); (ev, Fixed_handicap, w ["2"]) ].

Theorem C37_refuted_after_failed_loadsgf :
  exists st, served_any st /\ st_history st = [] /\ st_size st <> side (st_board st) /\
    exists p, view (st_base st) p = None /\ view (st_board st) p = Some Black.
Proof.
  exists (fst (run st0 bad_session)). split.
  - apply run_served_any. apply (sa_new (Some [9; 19])). vm_compute. reflexivity.
  - split; [vm_compute; reflexivity|]. split; [apply Z.eqb_neq; vm_compute; reflexivity|].
    exists (3, 3). split; vm_compute; reflexivity.
Qed.
Print Assumptions C37_refuted_after_failed_loadsgf.

(** Reading a game record. *)
Definition good_file : files := fun _ => Some (str "(;SZ[9]KM[6.5]HA[2]AB[cg][gc];W[ee];B[];W[ed])", UTF_8).
Example C37_demo_loadsgf :
  let st1 := fst (handle (env0 (point_gen None) good_file) Loadsgf st0 (w ["x.sgf"; "3"])) in
  let '(st, rs) := run st1 [(ev, Play, w ["b"; "A1"])] in
  served st1 /\ served (fst (run st1 [(ev, Play, w ["b"; "A1"])])) /\ rs = [GOk None] /\
  moves_made st = [(White, Some (4, 4)); (Black, None); (Black, Some (0, 0))] /\
  st_komi st = (65, 1%nat) /\ st_handicap st = Some 2.
Proof.
  set (st1 := fst _).
  assert (served st1) as S.
  { assert (snd (handle (env0 (point_gen None) good_file) Loadsgf st0 (w ["x.sgf"; "3"])) = GOk None) as R by (vm_compute; reflexivity).
    unfold st1. destruct (handle _ Loadsgf st0 _) as [s r] eqn:E. cbn [fst snd] in *.
    eapply sv_command; [exact st0_served|exact E|auto]. }
  assert (served (fst (run st1 [(ev, Play, w ["b"; "A1"])]))) as S2.
  { apply run_served; [exact S|]. cbn [In]. intros x [<-|[]]. discriminate. }
  cbv zeta. destruct (run st1 _) as [st rs] eqn:E.
  split; [exact S|]. split; [exact S2|].
  change st with (fst (st, rs)). change rs with (snd (st, rs)) at 1. rewrite <- E. unfold st1. clear.
  repeat (split; [vm_compute; reflexivity|]). vm_compute; reflexivity.
Qed.

(** * C38 *)

(** A command that fails (with an error response, a fatal error or an uncaught exception)
    leaves the state as it was, with two exceptions spelt out in [failure]. *)
Theorem C38_failed_commands :
  forall env c args st st' r, served st -> handle env c st args = (st', r) ->
  (forall a, r <> GOk a) -> failure c st st'.
Proof. exact C38_failure_proof. Qed.
Print Assumptions C38_failed_commands.

(** For the commands other than set_free_handicap and loadsgf: nothing changes. *)
Theorem C38_failed_commands_change_nothing :
  forall env c args st st' r, served st -> handle env c st args = (st', r) ->
  (forall a, r <> GOk a) -> c <> Set_free_handicap -> c <> Loadsgf -> st' = st.
Proof.
  intros env c args st st' r S E N A B. destruct (C38_failure_proof env c args st st' r S E N) as [H|[[H _]|[H _]]]; congruence.
Qed.
Print Assumptions C38_failed_commands_change_nothing.

Example C38_demo :
  let '(st, _) := run st0 ko_game in
  handle ev Play st (w ["w"; "B1"]) = (st, GError (str "illegal move")) /\
  fst (handle ev Play st (w ["w"; "Z1"])) = st /\
  fst (handle (at_ 0 1) Genmove st (w ["w"])) = st /\
  fst (handle ev Boardsize st (w ["13"])) = st /\
  fst (handle ev Fixed_handicap st (w ["2"])) = st.
Proof. vm_compute. auto 10. Qed.

(** The exceptions really happen: a failed set_free_handicap drops the passes recorded on an
    empty board, and a failed loadsgf changes the board size. *)
Example C38_demo_exceptions :
  (let '(st, _) := run st0 [(ev, Play, w ["b"; "pass"])] in
   let '(st', r) := handle ev Set_free_handicap st (w ["D4"; "D4"]) in
   (exists m, r = GError m) /\ List.length (st_history st) = 1%nat /\ st_history st' = []) /\
  (let '(st', r) := handle (env0 (point_gen None) bad_file) Loadsgf st0 (w ["x.sgf"]) in
   (exists m, r = GError m) /\ st_size st0 = 9 /\ st_size st' = 19).
Proof. vm_compute. eauto 10. Qed.

(** On boards with no fixed handicap the place_free_handicap command fails with an exception
    that the engine doesn't expect (ValueError); it still changes nothing.  With 20 stones
    asked for, 9 are placed, and the recorded handicap is 20. *)
Example C38_demo_place_free :
  (let st := match new_state (Some [6]) with Ok st => st | Err _ => st0 end in
   exists m, handle ev Place_free_handicap st (w ["2"]) = (st, GRaise m)) /\
  (let '(st, _) := run st0 [(ev, Place_free_handicap, w ["20"])] in
   st_handicap st = Some 20 /\ List.length (List.filter (fun c => match c with Some _ => true | None => false end) (List.concat (grid (st_board st)))) = 9%nat).
Proof. vm_compute. eauto 10. Qed.
