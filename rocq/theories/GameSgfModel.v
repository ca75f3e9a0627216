(** Model of the game records written by gomill: gameplay.py:814-853 (Game_runner.make_sgf), and
    the accessors of sgf.py:716-798 they are read with. *)
From Verif Require Import Base Bytes PyStr Dict BoardModel CommonModel SgfGrammarModel GameplayModel SgfPropsModel
  SgfTreeModel SgfMovesModel.

(** ** Reading a record *)

(** sgf.py:737-748 [get_komi] (as [m / 10^k]). *)
Definition get_komi (w : world) (g : game) : res (Z * nat) :=
  match get_prop w (g_root g) (str "KM") with
  | Ok (VReal m k) => Ok (m, k)
  | Ok _ => Err TypeError
  | Err KeyError => Ok (0, O)
  | Err e => Err e
  end.

(** sgf.py:750-768 [get_handicap]. *)
Definition get_handicap (w : world) (g : game) : res (option Z) :=
  match get_prop w (g_root g) (str "HA") with
  | Ok (VInt n) => if n =? 0 then Ok None else if n =? 1 then Err ValueError else Ok (Some n)
  | Ok _ => Err TypeError
  | Err KeyError => Ok None
  | Err e => Err e
  end.

(** sgf.py:770-779 [get_player_name]. *)
Definition player_key (c : colour) : bytes := match c with Black => str "PB" | White => str "PW" end.
Definition get_player_name (w : world) (g : game) (c : colour) : res (option bytes) :=
  match get_prop w (g_root g) (player_key c) with
  | Ok (VText s) => Ok (Some s)
  | Ok _ => Err TypeError
  | Err KeyError => Ok None
  | Err e => Err e
  end.

(** sgf.py:781-793 [get_winner]; LookupError covers KeyError and IndexError. *)
Definition get_winner (w : world) (g : game) : res (option colour) :=
  match get_prop w (g_root g) (str "RE") with
  | Ok (VText []) => Ok None
  | Ok (VText (c :: _)) =>
      Ok (if ceqb (lower_char c) "b"%char then Some Black
          else if ceqb (lower_char c) "w"%char then Some White else None)
  | Ok _ => Err TypeError
  | Err KeyError | Err IndexError => Ok None
  | Err e => Err e
  end.

(** ** Writing a record *)

(** The Sgf_game that a call of [Sgf_game(size)] in the world [w] makes. *)
Definition new_sgf (size : Z) (w : world) : game :=
  SgfTreeModel.mkGame (List.length (w_nodes w)) (new_presenter size UTF_8).

(** [self.komi], an int or float (see [num] in GameplayModel). *)
Definition komi_value (k : num) : pvalue := VReal (fst k) (snd k).

(** [if x is not None: node.set(prop, x)]. *)
Definition set_opt (w : world) (n : nat) (k : bytes) (v : option pvalue) : outcome :=
  match v with None => done w | Some x => set_prop w n k x end.

(** sgf.py:637-642 [get_last_node], and a use of it. *)
Definition on_last (w : world) (g : game) (f : nat -> outcome) : outcome :=
  match last_node (List.length (w_nodes w)) w (g_root g) with
  | Err e => raise w e
  | Ok n => f n
  end.

(** gameplay.py:843-847: the nodes for the moves. *)
Fixpoint record_game (w : world) (g : game) (ms : list (colour * gmove * option bytes)) : outcome :=
  match ms with
  | [] => done w
  | (c, m, comment) :: rest =>
      let n := List.length (w_nodes w) in
      then_do (extend_main_sequence w g) (fun w1 =>
      then_do (set_move w1 n c m) (fun w2 =>
      then_do (set_opt w2 n (str "C") (option_map VText comment)) (fun w3 =>
      record_game w3 g rest)))
  end.

Definition colour_code (c : colour) : bytes := match c with Black => str "b" | White => str "w" end.

(** gameplay.py:851-852. *)
Definition final_message (c : colour) (message : bytes) : bytes :=
  str "final message from " ++ colour_code c ++ str ": <<<" ++ [char_lf] ++ message ++ [char_lf] ++ str ">>>".

(** gameplay.py:814-853 [make_sgf].  [version] is [gomill.__version__] and [today] is the date
    in the form sgf.py:809 gives it.  The new game is the next one; its root is the next node. *)
Definition make_sgf (version today : bytes) (r : runner) (w : world) : outcome :=
  let g := new_sgf (ru_size r) w in
  let root := g_root g in
  then_do (new_game w (ru_size r) UTF_8) (fun w1 =>
  then_do (set_prop w1 root (str "KM") (komi_value (ru_komi r))) (fun w2 =>
  then_do (set_prop w2 root (str "AP") (VPair (str "gomill") version)) (fun w3 =>
  then_do (set_opt w3 root (str "RE") (option_map (fun x => VText (r_sgf x)) (ru_result r))) (fun w4 =>
  then_do (set_opt w4 root (str "HA") (option_map VInt (ru_handicap r))) (fun w5 =>
  then_do (set_prop w5 root (str "DT") (VText today)) (fun w6 =>
  then_do (match ru_stones r with
           | Some (p :: l) => set_setup_stones w6 root (p :: l) [] []
           | _ => done w6
           end) (fun w7 =>
  then_do (record_game w7 g (ru_moves r)) (fun w8 =>
  match ru_final r with
  | None => done w8
  | Some (c, message) => on_last w8 g (fun n => add_comment_text w8 n (final_message c message))
  end)))))))).
