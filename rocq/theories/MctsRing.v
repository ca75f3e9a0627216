(** The MCTS tuner run by the ringmaster (C49): the competition, and what it relies on. *)
From Coq Require Import QArith.
From Verif Require Import Base Bytes Dict JobModel JobSpec RingModel RingSpec SchedModel MctsModel MctsSpec.
Open Scope Z_scope.

Section Ring.
Context {V P : Type}.
Variable veqb : V -> V -> bool.
Variable less : Z -> Z * Z -> Z * Z -> bool.

(** The methods of mcts_tuners.py:Mcts_tuner as the ringmaster calls them; get_status fails
    only if a scale function does (then this is a dummy: it's excluded by [usable]).  The
    reports change nothing. *)
Definition mcts_comp : competition (mconfig V P) (tuner V P) (mstatus V) (mjob P) mresponse := {|
  c_clean := fun cf => Ok (set_clean_status cf);
  c_load := set_status veqb;
  c_status := fun t => match get_status t with Ok st => st | Err _ => mkMS (sched_getstate (mt_sched t)) (mt_root t) (mt_desc t) [] end;
  c_get := get_game less;
  c_result := process_game_result;
  c_error := fun j _ t => process_game_error (mj_data j) t;
  c_report := fun t => t
|}.

(** A response carries the job's game data, and the opponent's description. *)
Definition mcts_answer (opponent : bytes) (j : mjob P) (r : mresponse) : Prop :=
  mr_data r = mj_data j /\ dget opponent (mr_descriptions r) <> None.

(** The status contains all statistics: nodes which aren't in it haven't been visited. *)
Definition mcts_records (tp : tparams) (st : option (mstatus V)) (t : tuner V P) : Prop :=
  forall p, match st with Some st => option_map stats (node_at p (mst_root st)) | None => None end
            = option_map stats (node_at p (mt_root t)) \/
    (match st with Some st => node_at p (mst_root st) = None | None => True end /\
     exists z, node_at p (mt_root t) = Some z /\ stats z = (tp_initial_wins tp, tp_initial_visits tp)).
End Ring.
