(** What the cross-entropy tuner's reports and history are to say (C74). *)
From Coq Require Import QArith Permutation Sorted.
From Verif Require Import Base Bytes PyStr CommonModel SgfPropsModel GameplayModel TableModel ReportModel ReportSpec CemModel CemSpec CemReportModel.
From Verif Require MctsReportModel MctsReportSpec.
Open Scope Z_scope.

(** ** Numbers *)
Definition shows_decimal (q : Q) (s : bytes) : Prop :=
  ((0 <= q)%Q /\ shows_places (Qnum q) (Zpos (Qden q)) s) \/
  ((q < 0)%Q /\ exists t, shows_places (- Qnum q) (Zpos (Qden q)) t /\ s = str "-" ++ t).

(** ** Parameters and distributions *)
Section Says.
Context {V P : Type}.
Variable formats : list (bytes * (V -> option bytes)).
Variable show_value : V -> bytes.
Variable cf : cconfig V P.

Definition values_for (sample : list Q) (values : list V) : Prop :=
  Forall2 (fun fx v => (fst fx) (snd fx) = Some v) (combine (cc_transforms cf) sample) values.
Definition shown_values (values : list V) (s : bytes) : Prop :=
  exists words, Forall2 (fun fv t => MctsReportSpec.value_text show_value (fst fv) (snd fv) t) (combine formats values) words /\ s = join (str "; ") words.
Definition params_text (sample : list Q) (s : bytes) : Prop := exists values, values_for sample values /\ shown_values values s.
(** The engine parameters for the means, and the means and variances. *)
Definition dist_text (d : distribution) (s : bytes) : Prop :=
  exists a ts, params_text (map fst d) a /\
    Forall2 (fun p t => exists x y, shows_decimal (fst p) x /\ shows_decimal (snd p) y /\ t = pad_left 5 x ++ str "~" ++ pad_left 4 y) d ts /\
    s = a ++ [char_lf] ++ join (str " ") ts.

(** ** The end of a generation *)
(** [l]: all its games.  The candidates, the best ones first; the elites are marked; halves are
    dropped from their points. *)
Definition candidate_line (l : cledger) (elites : list nat) (i : nat) (s : bytes) : Prop :=
  exists sample a mark, nth_error (cl_samples l) i = Some sample /\ params_text sample a /\
    (In i elites /\ mark = str "*" \/ ~ In i elites /\ mark = str " ") /\
    s = candidate_code (cl_gen l) i ++ mark ++ str " " ++ a ++ str " " ++ pad_left 3 (str_int (points l i / 2)).
Definition generation_says (l : cledger) (logged : list bytes) : Prop :=
  exists d order elites lines, dist_text (cl_dist l) d /\
    Permutation order (seq 0 (cc_samples cf)) /\ StronglySorted (better (all_points cf l)) order /\
    elites_of (cc_elite_proportion cf) (all_points cf l) elites /\
    Forall2 (candidate_line l elites) order lines /\
    logged = [str "Generation " ++ str_int (Z.of_nat (cl_gen l)); str "Distribution" ++ [char_lf] ++ d; join [char_lf] lines; []].

(** ** The reports *)
(** Whether candidate [i] has had a game without a winner in this generation. *)
Definition had_draw (l : cledger) (i : nat) : Prop := exists t, In (i, t, 1) (cl_done l).
Definition points_text (l : cledger) (i : nat) (s : bytes) : Prop :=
  let p := points l i in
  (~ had_draw l i /\ exists n, p = 2 * n /\ s = str_int n) \/
  (had_draw l i /\ ((exists n, p = 2 * n /\ s = str_int n ++ str ".0") \/ (exists n, p = 2 * n + 1 /\ s = str_int n ++ str ".5"))).
Definition screen_says (l : cledger) (s : bytes) : Prop :=
  exists ws d, Forall2 (points_text l) (seq 0 (cc_samples cf)) ws /\ dist_text (cl_dist l) d /\
    let g := str_int (Z.of_nat (cl_gen l)) in
    s = List.concat (map (fun x => x ++ [char_lf])
      [str "generation " ++ g; []; str "wins from current samples:"; str "[" ++ join (str ", ") ws ++ str "]"; [];
       if Nat.eqb (cl_gen l) (cc_generations cf) then str "final distribution:" else str "distribution for generation " ++ g ++ str ":"; d]).
Definition short_says (rc : rconfig) (l : cledger) (s : bytes) : Prop :=
  exists a, screen_says l a /\
    s = List.concat (map (fun x => x ++ [char_lf])
      ([str "CEM tuning event: " ++ rc_code rc] ++
       (match rc_description rc with Some d => if Nat.eqb (List.length d) 0 then [] else [d] | None => [] end) ++
       [str "board size: " ++ str_int (rc_board_size rc); str "komi: " ++ str_float (rc_komi rc)])) ++ a.

(** ** The driver, with the types of the numbers of wins: present and saved. *)
Definition cfloats (s : ctuner V P * option cstatus) (c : ccall) (f : list bool * list bool) : list bool * list bool :=
  let (now, saved) := f in
  match c with
  | DResult r => (result_floats r (fst s) now, saved)
  | DSave => (now, now)
  | DRestart _ _ => (match snd s with Some _ => saved | None => repeat false (cc_samples cf) end, saved)
  | _ => f
  end.
Fixpoint crun_floats (s : ctuner V P * option cstatus) (cs : list ccall) (f : list bool * list bool) : list bool * list bool :=
  match cs with
  | [] => f
  | c :: rest =>
      match cdo cf s c with
      | None => f
      | Some (s1, _) => crun_floats s1 rest (cfloats s c f)
      end
  end.
Definition no_floats : list bool * list bool := (repeat false (cc_samples cf), repeat false (cc_samples cf)).
End Says.

(** The tuner [t], with the types [floats] of its numbers of wins, after [calls] from a fresh
    start; [now]: what has happened in its present generation, as in C43. *)
Definition after {V P} (possible : Q -> Q -> Q -> Prop) (cf : cconfig V P) gauss coin (calls : list ccall) (t : ctuner V P) (floats : list bool) (now : cledger) : Prop :=
  exists t0 status events start saved,
    set_clean_status (with_random gauss coin cf) = Ok t0 /\
    crun cf (t0, None) calls = Some (t, status, events) /\
    floats = fst (crun_floats cf (t0, None) calls (no_floats cf)) /\
    initial possible cf start /\ csteps possible cf (start, None) events (now, saved).
