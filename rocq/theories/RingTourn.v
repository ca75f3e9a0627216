(** Tournaments run by the ringmaster (C29): the competition, and what it relies on. *)
From Coq Require Import Permutation.
From Verif Require Import Base Bytes Dict JobModel JobSpec RingModel RingSpec TournModel TournSpec.

(** The methods of tournaments.py:Tournament (and its subclasses) as the ringmaster calls
    them; the number of previous errors isn't used (tournaments.py:254-268). *)
Definition tourn_comp : competition tconfig tourn tstatus job response := {|
  c_clean := fun cf => Ok (set_clean_status cf);
  c_load := set_status;
  c_status := get_status;
  c_get := get_game;
  c_result := process_game_result;
  c_error := fun j _ t => let '(t', v) := process_game_error j t in (t', Ok v);
  c_report := write_report
|}.

(** A response to a job carries the job's game data, and a result that can be saved. *)
Definition game_answer (j : job) (r : response) : Prop := rs_data r = j_data j /\ pickles (rs_result r).

(** The results of a matchup in the status file. *)
Definition saved_results (f : option (file tstatus)) (id : bytes) : list game_result :=
  match f with
  | Some (FComplete _ st) =>
      match dget id (ts_results st) with Some l => map game_result_setstate l | None => [] end
  | _ => []
  end.
