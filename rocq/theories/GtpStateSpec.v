(** What a GTP engine's game state means (C37, C38), apart from the code. *)
From Verif Require Import Base Bytes PyStr Dict BoardModel BoardSpec CommonModel SgfPropsModel SgfTreeModel SgfTreeSpec
  SgfMovesModel SgfMovesSpec GtpModel GtpStateModel.

(** Playing a list of moves and passes, by the rules of Go, leads from one position to
    another. *)
Inductive replays (s : Z) : position -> list (colour * gmove) -> position -> Prop :=
| rp_done p p' : same_on s p p' -> replays s p [] p'
| rp_pass p c l p' : replays s p l p' -> replays s p ((c, None) :: l) p'
| rp_move p c q p1 l p' : on_board s q -> p q = None -> go_move s p q c p1 ->
    replays s p1 l p' -> replays s p ((c, Some q) :: l) p'.

(** The moves of a state's history. *)
Definition moves_made (st : gstate) : list (colour * gmove) :=
  map (fun h => (h_colour h, h_move h)) (st_history st).

(** The attributes of a state fit together: the board is what the moves in the history lead
    to from the base position. *)
Definition consistent (st : gstate) : Prop :=
  In (st_size st) (st_sizes st) /\ 2 <= st_size st /\
  reachable (st_size st) (st_board st) /\ reachable (st_size st) (st_base st) /\
  replays (st_size st) (view (st_base st)) (moves_made st) (view (st_board st)).

(** [k] is the point that the simple ko rule forbids after [c] plays at [q] following the
    moves [l]. *)
Definition ko_after (s : Z) (base : position) (l : list (colour * gmove)) (c : colour) (q k : point) : Prop :=
  exists p p', replays s base l p /\ go_move s p q c p' /\ simple_ko s p q c p' k.

(** What a move generator is told about the ko: nothing unless the last stone played (by the
    opponent, with only passes since) took a ko, and then nothing but the point of that ko;
    and exactly that if the last move isn't a pass. *)
Definition ko_right (st : gstate) : Prop :=
  let s := st_size st in let base := view (st_base st) in
  forall who reg,
  (forall k, gs_ko (state_for st who reg) = Some k ->
     exists l q passes, moves_made st = l ++ (opponent_of who, Some q) :: passes /\
       Forall (fun cm => snd cm = None) passes /\ ko_after s base l (opponent_of who) q k) /\
  (forall l q k, moves_made st = l ++ [(opponent_of who, Some q)] ->
     ko_after s base l (opponent_of who) q k -> gs_ko (state_for st who reg) = Some k).

(** ** Histories of commands *)

(** The states a Gtp_state object can be in. *)
Inductive served_any : gstate -> Prop :=
| sa_new sizes st : new_state sizes = Ok st -> served_any st
| sa_command env c args st st' r :
    served_any st -> handle env c st args = (st', r) -> served_any st'.

(** The states in histories in which no loadsgf command failed on a file with another board
    size, unless a later clear_board or boardsize started a new game
    (see C37_refuted_after_failed_loadsgf). *)
Inductive served : gstate -> Prop :=
| sv_new sizes st : new_state sizes = Ok st -> served st
| sv_command env c args st st' r :
    served st -> handle env c st args = (st', r) ->
    (c = Loadsgf -> st_size st' = st_size st \/ r = GOk None) -> served st'
| sv_restart env c args st st' :
    served_any st -> handle env c st args = (st', GOk None) -> c = Clear_board \/ c = Boardsize -> served st'.

(** ** What the commands do *)

(** Everything but the board and the ko (which are determined by the rest). *)
Record info : Type := mkI {
  i_sizes : list Z;
  i_size : Z;
  i_base : board;
  i_history : list hmove;
  i_handicap : option Z;
  i_komi : Z * nat;
  i_time_settings : option (Z * Z * Z);
  i_time_b : option Z * option Z;
  i_time_w : option Z * option Z
}.
Definition info_of (st : gstate) : info :=
  mkI (st_sizes st) (st_size st) (st_base st) (st_history st) (st_handicap st) (st_komi st)
      (st_time_settings st) (st_time_b st) (st_time_w st).

(** A new game on an empty board of size [n]. *)
Definition new_game_on (n : Z) (st st' : gstate) : Prop :=
  exists b, new_board n = Ok b /\
  info_of st' = mkI (st_sizes st) n b [] None (st_komi st) (st_time_settings st) (st_time_b st) (st_time_w st).

(** A new game of which the base position has Black stones at [pts] and nothing else. *)
Definition handicap_game (n : Z) (pts : list point) (st st' : gstate) : Prop :=
  exists b, reachable (st_size st) b /\
  (forall p, on_board (st_size st) p -> view b p = if mem_point p pts then Some Black else None) /\
  info_of st' = mkI (st_sizes st) (st_size st) b [] (Some n) (st_komi st)
                    (st_time_settings st) (st_time_b st) (st_time_w st).

(** [m] may be played: a pass or a vacant point. *)
Definition vacant (st : gstate) (m : gmove) : Prop :=
  match m with
  | None => True
  | Some p => on_board (st_size st) p /\ view (st_board st) p = None
  end.

(** One more move. *)
Definition one_more (h : hmove) (st st' : gstate) : Prop :=
  vacant st (h_move h) /\
  info_of st' = mkI (st_sizes st) (st_size st) (st_base st) (st_history st ++ [h]) (st_handicap st) (st_komi st)
                    (st_time_settings st) (st_time_b st) (st_time_w st).

(** Komi is kept within -625 .. 625. *)
Definition clipped (f k : Z * nat) : Prop :=
  let (m, d) := f in
  (- 625 * 10 ^ Z.of_nat d <= m <= 625 * 10 ^ Z.of_nat d -> k = f) /\
  (m < - 625 * 10 ^ Z.of_nat d -> k = (- 625, O)) /\ (625 * 10 ^ Z.of_nat d < m -> k = (625, O)).

(** What a game record in a file says: the size, the komi (0 if there is none), the number
    of handicap stones (none if there is no usable number), the setup and the moves. *)
Definition file_says (text : bytes) (e : encoding) (size : Z) (komi : Z * nat) (handicap : option Z)
  (setup : position) (ms : list (colour * gmove)) : Prop :=
  exists w g t, load_string empty_world text e false = (w, Ok tt) /\ game_at w 0 = Some g /\
    tree_of w (g_root g) t /\ g_size g = size /\
    (get_prop w (g_root g) (str "KM") = Ok (VReal (fst komi) (snd komi)) \/
     has_property w (g_root g) (str "KM") = false /\ komi = (0, O)) /\
    (handicap = match get_prop w (g_root g) (str "HA") with
                | Ok (VInt n) => if (n =? 0) || (n =? 1) then None else Some n
                | _ => None
                end) /\
    exists ab aw ae, readable w g t ab aw ae ms /\ same_on size setup (setup_position empty_position ab aw ae).

(** What the move generator's answer means. *)
Definition generated_move (g : generated) (m : gmove) : Prop :=
  gen_resign g = false /\ (if gen_pass g then m = None else m = gen_move g /\ m <> None).

(** The effect of a successful command. *)
Definition unchanged (st st' : gstate) : Prop := st' = st.

Definition genmove_effect (env : surroundings) (claims : bool) (c : colour) (st : gstate) (r : option bytes) (st' : gstate) : Prop :=
  exists g, env_gen env (state_for st c false) c = Ok g /\
  ((claims = true /\ gen_claim g = true /\ r = Some (str "claim") /\ unchanged st st') \/
   (claims && gen_claim g = false /\ gen_resign g = true /\ r = Some (str "resign") /\ unchanged st st') \/
   (claims && gen_claim g = false /\ exists m v, generated_move g m /\ format_vertex m = Ok v /\ r = Some v /\
      one_more (mkH c m (gen_comments g) (gen_cookie g)) st st')).

Definition effect (env : surroundings) (cmd : command) (args : list bytes) (st : gstate) (r : option bytes) (st' : gstate) : Prop :=
  match cmd with
  | Boardsize => exists a rest n, args = a :: rest /\ interpret_int a = GOk n /\ In n (st_sizes st) /\
      new_game_on n st st' /\ r = None
  | Clear_board => new_game_on (st_size st) st st' /\ r = None
  | Komi => exists a rest f k, args = a :: rest /\ interpret_float a = GOk f /\ clipped f k /\
      st_board st' = st_board st /\ st_ko st' = st_ko st /\ st_ko_player st' = st_ko_player st /\
      info_of st' = mkI (st_sizes st) (st_size st) (st_base st) (st_history st) (st_handicap st) k
                        (st_time_settings st) (st_time_b st) (st_time_w st) /\ r = None
  | Fixed_handicap => exists a rest n pts vs, args = a :: rest /\ interpret_int a = GOk n /\
      is_empty (st_board st) = true /\ handicap_points n (st_size st) = Ok pts /\
      handicap_game n pts st st' /\
      Forall2 (fun p v => format_vertex (Some p) = Ok v) pts vs /\ r = Some (join (str " ") vs)
  | Place_free_handicap => exists a rest n m pts vs, args = a :: rest /\ interpret_int a = GOk n /\
      2 <= n <= st_size st * st_size st - 1 /\ is_empty (st_board st) = true /\
      max_fixed_handicap (st_size st) = Ok m /\ handicap_points (Z.min n m) (st_size st) = Ok pts /\
      handicap_game (if n =? st_size st * st_size st - 1 then n - 1 else n) pts st st' /\
      Forall2 (fun p v => format_vertex (Some p) = Ok v) pts vs /\ r = Some (join (str " ") vs)
  | Set_free_handicap => exists pts,
      Forall2 (fun a p => interpret_vertex a (st_size st) = GOk (Some p)) args pts /\ NoDup pts /\
      is_empty (st_board st) = true /\
      2 <= Z.of_nat (List.length pts) <= st_size st * st_size st - 1 /\
      handicap_game (Z.of_nat (List.length pts)) pts st st' /\ r = None
  | Play => exists a v rest c m, args = a :: v :: rest /\ interpret_colour a = GOk c /\
      interpret_vertex v (st_size st) = GOk m /\ one_more (mkH c m None None) st st' /\ r = None
  | Genmove => exists a rest c, args = a :: rest /\ interpret_colour a = GOk c /\ genmove_effect env false c st r st'
  | Genmove_ex => (args = [] /\ r = Some (str "claim") /\ unchanged st st') \/
      exists a rest c, args = a :: rest /\ interpret_colour a = GOk c /\
        exists claims, (claims = true <-> In (str "claim") rest) /\ genmove_effect env claims c st r st'
  | Reg_genmove => exists a rest c g, args = a :: rest /\ interpret_colour a = GOk c /\
      env_gen env (state_for st c true) c = Ok g /\ unchanged st st' /\
      (if gen_resign g then r = Some (str "resign")
       else exists m v, generated_move g m /\ format_vertex m = Ok v /\ r = Some v)
  | Undo => exists h hs, st_history st = hs ++ [h] /\
      info_of st' = mkI (st_sizes st) (st_size st) (st_base st) hs (st_handicap st) (st_komi st)
                        (st_time_settings st) (st_time_b st) (st_time_w st) /\ r = None
  | Showboard => unchanged st st' /\ exists s, render_board (st_board st) = Ok s /\ r = Some (char_lf :: s ++ [char_lf])
  | Loadsgf => exists path rest text e size komi handicap setup ms k b,
      args = path :: rest /\ env_files env path = Some (text, e) /\
      file_says text e size komi handicap setup ms /\ In size (st_sizes st) /\ clipped komi k /\
      (exists n, match rest with
                 | [] => n = List.length ms
                 | a :: _ => exists z, interpret_int a = GOk z /\ n = Z.to_nat (z - 1)
                 end /\
       reachable size b /\ same_on size (view b) setup /\
       info_of st' = mkI (st_sizes st) size b (map (fun cm => mkH (fst cm) (snd cm) None None) (firstn n ms))
                         handicap k (st_time_settings st) (st_time_b st) (st_time_w st)) /\ r = None
  | Explain_last_move => unchanged st st' /\
      (st_history st = [] /\ r = None \/ exists hs h, st_history st = hs ++ [h] /\ r = h_comments h)
  | Time_left => exists a1 a2 a3 rest c t n, args = a1 :: a2 :: a3 :: rest /\
      interpret_colour a1 = GOk c /\ interpret_int a2 = GOk t /\ interpret_int a3 = GOk n /\ r = None /\
      st_board st' = st_board st /\ st_ko st' = st_ko st /\ st_ko_player st' = st_ko_player st /\
      let new := (Some t, if n =? 0 then None else Some n) in
      info_of st' = mkI (st_sizes st) (st_size st) (st_base st) (st_history st) (st_handicap st) (st_komi st)
                        (st_time_settings st) (match c with Black => new | White => st_time_b st end)
                        (match c with Black => st_time_w st | White => new end)
  | Time_settings => exists a1 a2 a3 rest m b s, args = a1 :: a2 :: a3 :: rest /\
      interpret_int a1 = GOk m /\ interpret_int a2 = GOk b /\ interpret_int a3 = GOk s /\ r = None /\
      st_board st' = st_board st /\ st_ko st' = st_ko st /\ st_ko_player st' = st_ko_player st /\
      info_of st' = mkI (st_sizes st) (st_size st) (st_base st) (st_history st) (st_handicap st) (st_komi st)
                        (Some (m, b, s)) (st_time_b st) (st_time_w st)
  end.

(** The state after a command that failed: unchanged, except that a set_free_handicap that
    gets as far as placing stones (on an empty board, then) starts a new game, and that a
    loadsgf that gets as far as reading a file with an acceptable size (not necessarily the
    current one) sets the board size (which isn't then the size of the board) and may
    bring back a ko that a pass had lifted. *)
Definition failure (cmd : command) (st st' : gstate) : Prop :=
  st' = st \/
  (cmd = Set_free_handicap /\ is_empty (st_board st) = true /\ new_game_on (st_size st) st st') \/
  (cmd = Loadsgf /\ In (st_size st') (st_sizes st) /\ st_board st' = st_board st /\
   info_of st' = mkI (st_sizes st) (st_size st') (st_base st) (st_history st) (st_handicap st) (st_komi st)
                     (st_time_settings st) (st_time_b st) (st_time_w st)).
