(** Model of what the cross-entropy tuner says: gomill/cem_tuners.py, its history, its event log,
    its reports and the notes for game records. *)
From Coq Require Import QArith.
From Verif Require Import Base Bytes PyStr Dict CommonModel SgfPropsModel GameplayModel SchedModel TableModel ReportModel CemModel.
From Verif Require MctsReportModel.
Open Scope Z_scope.

Section Say.
(** How ["%.2f"] resolves a tie; other numbers are rounded exactly (see ReportModel.v). *)
Variable tie : Z -> Z -> bool.
Definition qfixed2 (q : Q) : bytes := fixed2 tie (Qnum q) (Zpos (Qden q)).

(** :56-58 [Distribution.format]; what's called stddev there is the variance. *)
Definition format_gaussians (d : distribution) : bytes :=
  join (str " ") (map (fun p => pad_left 5 (qfixed2 (fst p)) ++ str "~" ++ pad_left 4 (qfixed2 (snd p))) d).

Context {V P : Type}.
(** The parameters' codes and formats ([None]: an exception from [pspec.format % v]), and
    ["%s" % v]. *)
Variable formats : list (bytes * (V -> option bytes)).
Variable show_value : V -> bytes.

(** :305-313 [format_engine_parameters] (the MCTS tuner has the same code). *)
Definition format_engine_parameters (vs : list V) : bytes := MctsReportModel.format_engine_parameters formats show_value vs.
(** :315-317 [format_optimiser_parameters]. *)
Definition format_optimiser_parameters (cf : cconfig V P) (l : list Q) : res bytes :=
  do vs <- transform_parameters cf l; Ok (format_engine_parameters vs).

(** :474-482 [format_distribution]. *)
Definition format_distribution (cf : cconfig V P) (d : distribution) : res bytes :=
  do a <- format_optimiser_parameters cf (get_means d); Ok (a ++ [char_lf] ++ format_gaussians d).

(** :484-500 [format_generation_results], from place [i] on; the wins are given in half points,
    and ["%3d"] drops a half. *)
Fixpoint result_lines (cf : cconfig V P) (generation : nat) (samples : list (list Q)) (count i : nat) (ordered : list (Z * nat)) : res (list bytes) :=
  match ordered with
  | [] => Ok []
  | (wins, number) :: rest =>
      match nth_error samples number with
      | None => Err IndexError
      | Some opt =>
          do a <- format_optimiser_parameters cf opt;
          do l <- result_lines cf generation samples count (S i) rest;
          Ok ((make_candidate_code generation number ++ (if Nat.ltb i count then str "*" else str " ") ++ str " " ++ a ++ str " " ++
               pad_left 3 (str_int (wins / 2))) :: l)
      end
  end.

(** :380-384: what [finish_generation] passes to log_history. *)
Definition generation_log (t : ctuner V P) : res (list bytes) :=
  let cf := ct_conf t in
  do a <- format_distribution cf (ct_distribution t);
  do l <- result_lines cf (ct_generation t) (ct_samples t) (elite_count (cc_elite_proportion cf) (cc_samples cf)) 0 (sorter (ct_wins t));
  Ok [str "Generation " ++ str_int (Z.of_nat (ct_generation t)); str "Distribution" ++ [char_lf] ++ a; join [char_lf] l; []].

(** :443-460: what [process_game_result] passes to log_history. *)
Definition result_log (r : cresponse) (t : ctuner V P) : res (list bytes) :=
  let '(candidate_number, candidate_code, round_id) := cr_data r in
  let (s, x) := gfix (ct_sched t) (group_code candidate_number) round_id in
  match x with
  | Err _ => Ok []
  | Ok _ =>
      if negb (bytes_eqb candidate_code (cr_black r) || bytes_eqb candidate_code (cr_white r)) then Ok []
      else
        let points := if opt_eqb (cr_winner r) candidate_code then 2
                      else match cr_winner r with None => 1 | Some _ => 0 end in
        match (if points =? 0 then Some (ct_wins t) else add_nth candidate_number points (ct_wins t)) with
        | None => Ok []
        | Some wins =>
            match all_fixed s with
            | Ok true => generation_log (with_results s wins t)
            | _ => Ok []
            end
        end
  end.

(** :410-412: what [get_game] passes to log_event. *)
Definition get_log (t : ctuner V P) : list bytes :=
  if nothing_issued_yet (ct_sched t) then [[char_lf] ++ str "starting generation " ++ str_int (Z.of_nat (ct_generation t))] else [].

(** :438-440 [sgf_note] of a job for a candidate. *)
Definition sgf_note (t : ctuner V P) (number : nat) : res bytes :=
  match nth_error (ct_samples t) number with
  | None => Err IndexError
  | Some opt => do a <- format_optimiser_parameters (ct_conf t) opt; Ok (str "Candidate parameters: " ++ a)
  end.

(** ** The types of the numbers of wins *)
(** A candidate's wins become a float when it gets half a point (:453) and stay one.  [floats]:
    which of them are floats.  They start as integers (:289), and the types are saved with the
    status.  (If a generation can't be finished because of an exception, they stay as they
    are.) *)
Fixpoint set_true (i : nat) (l : list bool) : list bool :=
  match l, i with
  | [], _ => []
  | _ :: l', O => true :: l'
  | x :: l', S i' => x :: set_true i' l'
  end.
Definition result_floats (r : cresponse) (t : ctuner V P) (floats : list bool) : list bool :=
  let '(candidate_number, candidate_code, _) := cr_data r in
  match process_game_result r t with
  | (_, Err _) => floats
  | (t', Ok _) =>
      if Nat.eqb (ct_generation t') (ct_generation t) || Nat.eqb (ct_generation t') (cc_generations (ct_conf t)) then
        match cr_winner r with None => set_true candidate_number floats | Some _ => floats end
      else repeat false (cc_samples (ct_conf t))
  end.

(** ["%s" % self.wins]. *)
Definition wins_text (half_points : Z) (float : bool) : bytes :=
  if float then str_float (5 * half_points, 1%nat) else str_int (half_points / 2).
Fixpoint wins_texts (wins : list Z) (floats : list bool) : list bytes :=
  match wins with
  | [] => []
  | w :: ws => match floats with
               | [] => wins_text w false :: wins_texts ws []
               | f :: fs => wins_text w f :: wins_texts ws fs
               end
  end.
Definition format_wins (wins : list Z) (floats : list bool) : bytes := str "[" ++ join (str ", ") (wins_texts wins floats) ++ str "]".

(** ** The reports *)
Record rconfig : Type := mkRC {
  rc_code : bytes;                    (* competition_code *)
  rc_description : option bytes;
  rc_board_size : Z;
  rc_komi : num
}.
Variable rc : rconfig.

(** :502-509 [write_static_description]. *)
Definition static_description : bytes :=
  say (str "CEM tuning event: " ++ rc_code rc) ++
  (match rc_description rc with Some (c :: r) => say (c :: r) | _ => [] end) ++
  say (str "board size: " ++ str_int (rc_board_size rc)) ++
  say (str "komi: " ++ str_float (rc_komi rc)).

(** :511-520 [write_screen_report]. *)
Definition screen_report (t : ctuner V P) (floats : list bool) : res bytes :=
  let g := str_int (Z.of_nat (ct_generation t)) in
  do d <- format_distribution (ct_conf t) (ct_distribution t);
  Ok (say (str "generation " ++ g) ++ say [] ++
      say (str "wins from current samples:" ++ [char_lf] ++ format_wins (ct_wins t) floats) ++ say [] ++
      say (if Nat.eqb (ct_generation t) (cc_generations (ct_conf t)) then str "final distribution:"
           else str "distribution for generation " ++ g ++ str ":") ++
      say d).

(** :522-526 [write_short_report] and [write_full_report]. *)
Definition short_report (t : ctuner V P) (floats : list bool) : res bytes :=
  do a <- screen_report t floats; Ok (static_description ++ a).
End Say.
