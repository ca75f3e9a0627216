(** What the MCTS tuner's reports, history and notes are to say (C73). *)
From Coq Require Import QArith Permutation Sorted.
From Verif Require Import Base Bytes PyStr Dict CommonModel SgfPropsModel SchedModel GameplayModel TableModel ReportModel MctsModel MctsSpec MctsReportModel.
Open Scope Z_scope.

(** ** Numbers and lines *)

(** [s] is a decimal with three places, as near as possible to [n/d]. *)
Definition shows3 (n d : Z) (s : bytes) : Prop :=
  exists q t, 0 <= q /\ 2 * Z.abs (q * d - 1000 * n) <= d /\
    s = str_int (q / 1000) ++ str "." ++ t /\ List.length t = 3%nat /\
    Forall (fun c => is_digit c = true) t /\ digits_val t = q mod 1000.

Definition written (lines : list bytes) : bytes := List.concat (map (fun l => l ++ [char_lf]) lines).

(** A child's coordinates: "(1,2)", or "(1,)" if there is one dimension. *)
Definition coords_text (coords : list nat) (s : bytes) : Prop :=
  s = str "(" ++ join (str ",") (map (fun n => str_int (Z.of_nat n)) coords) ++
      (if Nat.eqb (List.length coords) 1 then str "," else []) ++ str ")".
Definition step_text (splits : list nat) (i : nat) (s : bytes) : Prop :=
  exists coords, is_child splits i coords /\ coords_text coords s.

(** The order of a tree's nodes: a node comes before its descendants, and the descendants of a
    child before the next child. *)
Definition before (p q : list nat) : Prop :=
  (exists i r, q = p ++ i :: r) \/
  (exists s i j p' q', p = s ++ i :: p' /\ q = s ++ j :: q' /\ (i < j)%nat).

(** ** Parameters *)
Section Says.
Context {V P : Type}.
Variable formats : list (bytes * (V -> option bytes)).
Variable show_value : V -> bytes.
Variable cf : mconfig V P.

(** A value is shown with the parameter's format, or if that fails as "[code?value]". *)
Definition value_text (f : bytes * (V -> option bytes)) (v : V) (s : bytes) : Prop :=
  snd f v = Some s \/ (snd f v = None /\ s = str "[" ++ fst f ++ str "?" ++ show_value v ++ str "]").
(** The engine parameters for the centre of the cell of a path. *)
Definition values_of (path : list nat) (values : list V) : Prop :=
  exists params r, parameters_for_path (mc_tree cf) path = Ok params /\
    cell_of (tp_splits (mc_tree cf)) path r /\ Forall2 middle params r /\
    Forall2 (fun fx v => (fst fx) (snd fx) = Some v) (combine (mc_scales cf) params) values.
Definition params_text (path : list nat) (s : bytes) : Prop :=
  exists values words, values_of path values /\
    Forall2 (fun fv t => value_text (fst fv) (snd fv) t) (combine formats values) words /\ s = join (str "; ") words.

(** A simulation: the parameters, the steps from the root, and the outcome. *)
Definition sim_text (path : list nat) (outcome s : bytes) : Prop :=
  exists a ts, params_text path a /\ Forall2 (step_text (tp_splits (mc_tree cf))) path ts /\
    s = a ++ str " [" ++ join (str " ") ts ++ str "]" ++ outcome.

(** ** The finished games *)
Variable root : node.
Variable l : ledger.
(** How many games were played with parameters from the cell of [p], and how many of them the
    candidate won (failed games don't count). *)
Definition games (p : list nat) : Z := count (passes_through p) (l_done l).
Definition wins (p : list nat) : Z := count (won_through p) (l_done l).
(** The rate takes the initial values of the nodes into account. *)
Definition rate_text (p : list nat) (s : bytes) : Prop :=
  shows3 (tp_initial_wins (mc_tree cf) + wins p) (tp_initial_visits (mc_tree cf) + games p) s.

(** [p] is the path to a node of the tree. *)
Definition in_tree (p : list nat) : Prop := node_at p root <> None.

(** ** The summary of the tree *)
Definition ahead (p q : list nat) : Prop := games q < games p \/ (games p = games q /\ before p q).
(** [sel]: the [n] nodes at depth [k] (or all of them, if there are fewer) with most games, in
    order; of those with the same number of games the first ones are taken. *)
Definition most_visited (n k : nat) (sel : list (list nat)) : Prop :=
  StronglySorted before sel /\
  (forall p, In p sel -> List.length p = k /\ in_tree p) /\
  (List.length sel <= n)%nat /\
  (forall q, List.length q = k -> in_tree q -> ~ In q sel -> List.length sel = n /\ Forall (fun p => ahead p q) sel).
Definition node_line (p : list nat) (s : bytes) : Prop :=
  exists a ts r, params_text p a /\ Forall2 (step_text (tp_splits (mc_tree cf))) p ts /\ rate_text p r /\
    s = join (str " ") ts ++ str " " ++ ljust a 40 ++ str " " ++ r ++ str " " ++ pad_left 3 (str_int (games p)).
Inductive summary_says : nat -> list Z -> bytes -> Prop :=
| sum_nil k : summary_says k [] []
| sum_cons k n spec sel lines rest :
    most_visited (Z.to_nat n) k sel -> Forall2 node_line sel lines -> summary_says (S k) spec rest ->
    summary_says k (n :: spec)
      (written ((str "most visited at depth " ++ str_int (Z.of_nat k)) :: lines ++ [[]]) ++ rest).

(** ** The dump of the tree *)
Definition tree_row (p : list nat) (s : bytes) : Prop :=
  exists i p0 a t r, p = p0 ++ [i] /\ params_text p a /\ step_text (tp_splits (mc_tree cf)) i t /\ rate_text p r /\
    s = repeat " "%char (2 * List.length p) ++ t ++ str " " ++ a ++ str " " ++ r ++ str " " ++ pad_left 3 (str_int (games p)).
Definition tree_says (s : bytes) : Prop :=
  exists paths rows r,
    StronglySorted before paths /\
    (forall p, In p paths <-> (1 <= List.length p <= 2)%nat /\ in_tree p) /\
    Forall2 tree_row paths rows /\
    (games [] = 0 /\ r = str "--" \/ games [] <> 0 /\ shows3 (wins []) (games []) r) /\
    s = join [char_lf] ((str_int (Z.of_nat (count_tree_size root)) ++ str " nodes") ::
                        (str "Win rate " ++ str_int (wins []) ++ str "/" ++ str_int (games []) ++ str " = " ++ r) :: rows).

(** ** The reports *)
Variable rc : rconfig.
(** All games which have finished or failed. *)
Definition main_says (s : bytes) : Prop :=
  exists best a b, descends most_wins root best /\ sim_text best [] a /\ summary_says 1 (rc_summary rc) b /\
    s = written [str_int (Z.of_nat (List.length (l_done l))) ++
                 (match mc_number_of_games cf with None => [] | Some n => str "/" ++ str_int n end) ++ str " games played";
                 []; str "Best parameters: " ++ a; []] ++ b.

(** The first [n] items; if [n] is negative, all but the last [-n]. *)
Definition up_to {A} (n : Z) (xs : list A) : list A :=
  firstn (Z.to_nat (if n <? 0 then Z.of_nat (List.length xs) + n else n)) xs.
Definition screen_says (s : bytes) : Prop :=
  exists a b, main_says a /\ s = a ++ b /\
    (l_out l = [] /\ b = [] \/
     l_out l <> [] /\ exists all lines, Permutation all (l_out l) /\ StronglySorted lt (map fst all) /\
       Forall2 (fun kp t => exists d, sim_text (snd kp) [] d /\ t = str "game " ++ str_int (Z.of_nat (fst kp)) ++ str ": " ++ d)
               (up_to (rc_running rc) all) lines /\
       b = written (str "In progress:" :: lines)).

(** [desc]: the opponent's description in the last game that had one. *)
Definition short_says (desc : option bytes) (s : bytes) : Prop :=
  exists a, main_says a /\
    s = written ([str "MCTS tuning event: " ++ rc_code rc] ++
                 (match rc_description rc with Some d => if Nat.eqb (List.length d) 0 then [] else [d] | None => [] end) ++
                 [str "board size: " ++ str_int (rc_board_size rc); str "komi: " ++ str_float (rc_komi rc)]) ++
        a ++
        written [match desc with
                 | Some d => if Nat.eqb (List.length d) 0 then str "opponent: " ++ mc_opponent cf
                             else str "opponent (" ++ mc_opponent cf ++ str "): " ++ d
                 | None => str "opponent: " ++ mc_opponent cf
                 end; []].
End Says.

(** The opponent's description after some events; it's saved with the status. *)
Fixpoint description {P} (opponent : bytes) (events : list (mevent P)) (now saved : option bytes) : option bytes :=
  match events with
  | [] => now
  | MResult r _ :: es =>
      description opponent es (match dget opponent (mr_descriptions r) with Some d => Some d | None => now end) saved
  | MSave :: es => description opponent es now now
  | MRestart :: es => description opponent es saved saved
  | _ :: es => description opponent es now saved
  end.

(** What is logged after a game's result, and what is returned: the simulation, with the
    outcome; after every [k] games the tree too (if log_tree_to_history_period is [k]). *)
Definition result_says {V P} (formats : list (bytes * (V -> option bytes))) (show_value : V -> bytes) (cf : mconfig V P)
  (root : node) (l : ledger) (rc : rconfig) (path : list nat) (won : bool) (sgf_result : bytes) (logged : list bytes) (returned : bytes) : Prop :=
  exists d dump, sim_text formats show_value cf path (if won then str " won" else str " lost") d /\
    logged = d :: dump /\ returned = d ++ str " " ++ sgf_result /\
    ((exists k m, rc_period rc = Some k /\ Z.of_nat (List.length (l_done l)) = k * m /\
        exists s, tree_says formats show_value cf root l s /\ dump = [s]) \/
     ((forall k m, rc_period rc = Some k -> Z.of_nat (List.length (l_done l)) <> k * m) /\ dump = [])).
