(** Model of what the MCTS tuner says: gomill/mcts_tuners.py, the descriptions of the tree and of
    simulations, the reports, the history, and the notes for game records. *)
From Coq Require Import QArith.
From Verif Require Import Base Bytes PyStr Dict CommonModel SgfPropsModel GameplayModel SchedModel TableModel ReportModel MctsModel.
Open Scope Z_scope.

Section Say.
(** How ["%.3f"] resolves a tie; other quotients are rounded exactly (see ReportModel.v). *)
Variable tie : Z -> Z -> bool.

(** ["%.3f" % (n/d)], for [d > 0]. *)
Definition fixed3 (n d : Z) : bytes :=
  let q := nearest tie (1000 * Z.abs n) d in
  (if n <? 0 then str "-" else []) ++ str_int (q / 1000) ++ str "." ++ zfill 3 (str_int (q mod 1000)).

Context {V P : Type}.
(** The parameters' codes and formats ([None]: an exception from [pspec.format % v]), and
    ["%s" % v]. *)
Variable formats : list (bytes * (V -> option bytes)).
Variable show_value : V -> bytes.

(** :693-701 [format_engine_parameters]. *)
Definition format_value (f : bytes * (V -> option bytes)) (v : V) : bytes :=
  match snd f v with Some s => s | None => str "[" ++ fst f ++ str "?" ++ show_value v ++ str "]" end.
Definition format_engine_parameters (vs : list V) : bytes := join (str "; ") (zip_with format_value formats vs).

(** :703-705 [format_optimiser_parameters], of the parameters for a path. *)
Definition format_path (cf : mconfig V P) (path : list nat) : res bytes :=
  do l <- parameters_for_path (mc_tree cf) path;
  do vs <- scale_parameters cf l;
  Ok (format_engine_parameters vs).

(** :206-208 [describe_choice]: [str] of a tuple, without the spaces. *)
Definition describe_choice (tp : tparams) (choice : nat) : res bytes :=
  match nth_error (cube_coordinates (tp_splits tp)) choice with
  | None => Err IndexError
  | Some c => Ok (str "(" ++ join (str ",") (map (fun n => str_int (Z.of_nat n)) c) ++
                  (match c with [_] => str "," | _ => [] end) ++ str ")")
  end.
Fixpoint describe_choices (tp : tparams) (path : list nat) : res (list bytes) :=
  match path with
  | [] => Ok []
  | c :: r => do a <- describe_choice tp c; do b <- describe_choices tp r; Ok (a :: b)
  end.

(** :374-376 [describe_steps]. *)
Definition describe_steps (tp : tparams) (path : list nat) : res bytes :=
  do l <- describe_choices tp path; Ok (join (str " ") l).

(** :378-385 [Simulation.describe]. *)
Definition describe_simulation (cf : mconfig V P) (path : list nat) (won : option bool) : res bytes :=
  do a <- format_path cf path;
  do b <- describe_steps (mc_tree cf) path;
  Ok (a ++ str " [" ++ b ++ str "]" ++
      match won with None => [] | Some false => str " lost" | Some true => str " won" end).

(** :272-279: the next generation. *)
Definition next_generation (l : list (list nat * node)) : list (list nat * node) :=
  flat_map (fun px => match n_children (snd px) with
                      | None => []
                      | Some cs => map (fun ic => (fst px ++ [fst ic], snd ic)) (enumerate cs)
                      end) l.

(** [nlargest(n, l, key=most_visits)] is [sorted(l, key=most_visits, reverse=True)[:n]], and
    sorting keeps the order of items with the same key. *)
Fixpoint insert_visits (x : list nat * node) (l : list (list nat * node)) : list (list nat * node) :=
  match l with
  | [] => [x]
  | y :: r => if n_visits (snd x) <? n_visits (snd y) then y :: insert_visits x r else x :: l
  end.
Definition nlargest (n : nat) (l : list (list nat * node)) : list (list nat * node) :=
  firstn n (fold_right insert_visits [] l).

(** Python's order of lists of numbers. *)
Fixpoint path_ltb (a b : list nat) : bool :=
  match a, b with
  | [], [] => false
  | [], _ => true
  | _, [] => false
  | x :: a', y :: b' => Nat.ltb x y || (Nat.eqb x y && path_ltb a' b')
  end.
(** [sorted] of pairs of a path and a node (no path occurs twice, so nodes aren't compared). *)
Fixpoint insert_path (x : list nat * node) (l : list (list nat * node)) : list (list nat * node) :=
  match l with
  | [] => [x]
  | y :: r => if path_ltb (fst y) (fst x) then y :: insert_path x r else x :: l
  end.
Definition sort_paths (l : list (list nat * node)) : list (list nat * node) := fold_right insert_path [] l.

(** :258-264 [describe_node] in [summarise]; and what [p] writes. *)
Definition summary_line (cf : mconfig V P) (px : list nat * node) : res bytes :=
  let (path, x) := px in
  do a <- format_path cf path;
  do b <- describe_choices (mc_tree cf) path;
  Ok (join (str " ") b ++ str " " ++ ljust a 40 ++ str " " ++ fixed3 (n_wins x) (n_visits x) ++ str " " ++
      pad_left 3 (str_int (n_visits x - tp_initial_visits (mc_tree cf)))).
Fixpoint all_lines {A} (f : A -> res bytes) (l : list A) : res bytes :=
  match l with
  | [] => Ok []
  | x :: r => do a <- f x; do b <- all_lines f r; Ok (say a ++ b)
  end.

(** :245-285 [summarise]; [i]: the number of depths done. *)
Fixpoint summary_from (cf : mconfig V P) (i : nat) (last : list (list nat * node)) (spec : list Z) : res bytes :=
  match spec with
  | [] => Ok []
  | n :: rest =>
      let this := next_generation last in
      do a <- all_lines (summary_line cf) (sort_paths (nlargest (Z.to_nat n) this));
      do b <- summary_from cf (S i) this rest;
      Ok (say (str "most visited at depth " ++ str_int (Z.of_nat (S i))) ++ a ++ say [] ++ b)
  end.
Definition summarise (cf : mconfig V P) (root : node) (spec : list Z) : res bytes := summary_from cf O [([], root)] spec.

(** :210-243 [Tree.describe]. *)
Definition tree_line (cf : mconfig V P) (path : list nat) (choice : nat) (x : node) : res bytes :=
  do a <- format_path cf (path ++ [choice]);
  do b <- describe_choice (mc_tree cf) choice;
  Ok (b ++ str " " ++ a ++ str " " ++ fixed3 (n_wins x) (n_visits x) ++ str " " ++
      pad_left 3 (str_int (n_visits x - tp_initial_visits (mc_tree cf)))).
Fixpoint lines_of {A} (f : A -> res (list bytes)) (l : list A) : res (list bytes) :=
  match l with
  | [] => Ok []
  | x :: r => do a <- f x; do b <- lines_of f r; Ok (a ++ b)
  end.
Definition describe_tree (cf : mconfig V P) (root : node) (node_count : nat) : res bytes :=
  let wins := n_wins root - tp_initial_wins (mc_tree cf) in
  let visits := n_visits root - tp_initial_visits (mc_tree cf) in
  do rows <- lines_of (fun ic =>
      do a <- tree_line cf [] (fst ic) (snd ic);
      do b <- lines_of (fun jc => do a <- tree_line cf [fst ic] (fst jc) (snd jc); Ok [str "    " ++ a])
                       (match n_children (snd ic) with None => [] | Some cs => enumerate cs end);
      Ok ((str "  " ++ a) :: b)) (match n_children root with None => [] | Some cs => enumerate cs end);
  Ok (join [char_lf]
        ([str_int (Z.of_nat node_count) ++ str " nodes";
          str "Win rate " ++ str_int wins ++ str "/" ++ str_int visits ++ str " = " ++
          (if visits =? 0 then str "--" else fixed3 wins visits)] ++ rows)).

(** ** The reports *)
(** The settings the reports use (:537-547). *)
Record rconfig : Type := mkRC {
  rc_code : bytes;                    (* competition_code *)
  rc_description : option bytes;
  rc_board_size : Z;
  rc_komi : num;
  rc_summary : list Z;                (* summary_spec *)
  rc_running : Z;                     (* number_of_running_simulations_to_show *)
  rc_period : option Z                (* log_tree_to_history_period *)
}.
Variable rc : rconfig.

(** :820-827 [write_static_description]. *)
Definition static_description : bytes :=
  say (str "MCTS tuning event: " ++ rc_code rc) ++
  (match rc_description rc with Some (c :: r) => say (c :: r) | _ => [] end) ++
  say (str "board size: " ++ str_int (rc_board_size rc)) ++
  say (str "komi: " ++ str_float (rc_komi rc)).

(** :829-840 [_write_main_report]. *)
Definition main_report (t : tuner V P) : res bytes :=
  let cf := mt_conf t in
  let games_played := fixed (mt_sched t) in
  match retrieve_best_path (mt_root t) with
  | None => Err ValueError
  | Some best =>
      do a <- describe_simulation cf best None;
      do b <- summarise cf (mt_root t) (rc_summary rc);
      Ok (say (str_int games_played ++ (match mc_number_of_games cf with None => [] | Some n => str "/" ++ str_int n end) ++ str " games played") ++
          say [] ++ say (str "Best parameters: " ++ a) ++ say [] ++ b)
  end.

(** Python's [l[:n]]. *)
Definition slice_to {A} (n : Z) (l : list A) : list A :=
  if n <? 0 then firstn (Z.to_nat (Z.of_nat (List.length l) + n)) l else firstn (Z.to_nat n) l.
(** [sorted] of a dictionary's items. *)
Fixpoint insert_number {A} (x : nat * A) (l : list (nat * A)) : list (nat * A) :=
  match l with
  | [] => [x]
  | y :: r => if Nat.ltb (fst y) (fst x) then y :: insert_number x r else x :: l
  end.
Definition sort_numbers {A} (l : list (nat * A)) : list (nat * A) := fold_right insert_number [] l.

(** :842-849 [write_screen_report]. *)
Definition screen_report (t : tuner V P) : res bytes :=
  do a <- main_report t;
  do b <- match mt_sims t with
          | [] => Ok []
          | _ => do l <- all_lines (fun kp => do d <- describe_simulation (mt_conf t) (snd kp) None;
                                              Ok (str "game " ++ str_int (Z.of_nat (fst kp)) ++ str ": " ++ d))
                                   (slice_to (rc_running rc) (sort_numbers (mt_sims t)));
                 Ok (say (str "In progress:") ++ l)
          end;
  Ok (a ++ b).

(** :851-859 [write_short_report] and [write_full_report]. *)
Definition short_report (t : tuner V P) : res bytes :=
  do a <- main_report t;
  Ok (static_description ++ a ++
      say (match mt_desc t with
           | Some (c :: r) => str "opponent (" ++ mc_opponent (mt_conf t) ++ str "): " ++ c :: r
           | _ => str "opponent: " ++ mc_opponent (mt_conf t)
           end) ++ say []).

(** :796-803: what [process_game_result] passes to log_history, and what it returns;
    [sgf_result]: the game result's. *)
Definition result_text (r : mresponse) (sgf_result : bytes) (t : tuner V P) : res (list bytes * bytes) :=
  match process_game_result r t with
  | (_, Err e) => Err e
  | (t', Ok _) =>
      let won := match mr_loser r with Some c => bytes_eqb c (mc_opponent (mt_conf t)) | None => false end in
      match iget (mr_data r) (mt_sims t) with
      | None => Err KeyError
      | Some path =>
          do d <- describe_simulation (mt_conf t') path (Some won);
          do h <- match rc_period rc with
                  | None => Ok []
                  | Some k => if fixed (mt_sched t') mod k =? 0
                              then do s <- describe_tree (mt_conf t') (mt_root t') (mt_count t'); Ok [s] else Ok []
                  end;
          Ok (d :: h, d ++ str " " ++ sgf_result)
      end
  end.

(** :783-784: [sgf_note] of the job for a simulation. *)
Definition sgf_note (cf : mconfig V P) (path : list nat) : res bytes :=
  do s <- format_path cf path; Ok (str "Candidate parameters: " ++ s).
End Say.
