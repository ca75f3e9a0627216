From Coq Require Import QArith Lqa Permutation.
From Verif Require Import Base Bytes PyStr Dict CommonModel SgfPropsModel SgfValueProofs SchedModel GtpModel GameplayModel GameplaySpec GameplayResultProofs TournModel
  TableModel TableSpec TableProofs TableMainProofs TableReadProofs ReportModel ReportSpec ReportTextProofs.
Open Scope Z_scope.

(** The words of some texts. *)
Definition words_of (l : list bytes) : list bytes := List.concat (map split_ws l).

Section Shape.
Variable tie : Z -> Z -> bool.
Variables (ms : stats) (p1 p2 : bytes) (a1 a2 : option (Z * Z)).

Definition colour_cells (k : nat) : list bytes :=
  match by_colour ms with
  | Some br =>
      match k with
      | O => [format_half (wins_1b br); format_percent tie (wins_1b br) (played_1b ms);
              format_half (wins_1w br); format_percent tie (wins_1w br) (played_1w ms)]
      | 1%nat => [format_half (wins_2b br); format_percent tie (wins_2b br) (played_2b ms);
              format_half (wins_2w br); format_percent tie (wins_2w br) (played_2w ms)]
      | _ => [format_half (wins_b br); format_percent tie (wins_b br) (total ms);
              format_half (wins_w br); format_percent tie (wins_w br) (total ms)]
      end
  | None =>
      match colours ms, k with
      | Some (c1, c2), O => [str "(" ++ colour_word c1 ++ str ")"]
      | Some (c1, c2), 1%nat => [str "(" ++ colour_word c2 ++ str ")"]
      | _, _ => []
      end
  end.
Definition forfeited : bool := negb (forfeits_1 ms =? 0) || negb (forfeits_2 ms =? 0).
Definition timed : bool := truthy a1 || truthy a2.
Definition row_cells (k : nat) : list bytes :=
  (match k with
   | O => [p1; format_half (wins_1 ms); format_percent tie (wins_1 ms) (total ms)]
   | 1%nat => [p2; format_half (wins_2 ms); format_percent tie (wins_2 ms) (total ms)]
   | _ => []
   end) ++ colour_cells k ++
  (if forfeited then match k with O => [str_int (forfeits_1 ms)] | 1%nat => [str_int (forfeits_2 ms)] | _ => [] end else []) ++
  (if timed then match k with O => [time_text tie a1] | 1%nat => [time_text tie a2] | _ => [] end else []).
Definition titles : list bytes :=
  [str "wins"] ++
  (match by_colour ms with Some _ => [str "black"; str "white"] | None => [] end) ++
  (if forfeited then [str "forfeits"] else []) ++
  (if timed then [str "avg"; str "cpu"] else []).

Lemma table_shape : (by_colour ms = None -> colours ms <> None) -> exists t,
  stats_table tie ms p1 p2 a1 a2 = Ok t /\ complete t /\ proper t /\
  Forall (fun c => 1 <= col_padding c) (tb_columns t) /\ rows_of t = 3%nat /\
  List.concat (map (fun h => split_ws (fst h)) (tb_headings t)) = titles /\
  (forall r, (r < 3)%nat ->
     List.concat (map (fun i => split_ws (cell t r i)) (seq 0 (List.length (tb_columns t)))) = words_of (row_cells r)).
Proof.
  intros C. unfold stats_table, titles, row_cells, colour_cells. fold forfeited. fold timed.
  destruct (by_colour ms) as [br|] eqn:B; [|destruct (colours ms) as [[c1 c2]|] eqn:CC; [|exfalso; apply C; reflexivity]];
    destruct forfeited; destruct timed.
  all: cbn -[format_half format_percent str_int time_text str split_ws app colour_word].
  all: eexists; split; [reflexivity|].
  all: split; [split; [exists 3; split; [reflexivity|right; reflexivity]|cbn; lia]|].
  all: split; [split; [repeat (apply Forall_cons; [split; [discriminate|cbn; lia]|]); apply Forall_nil
                      |repeat (apply Forall_cons; [cbn; lia|]); apply Forall_nil]|].
  all: split; [repeat (apply Forall_cons; [cbn; lia|]); apply Forall_nil|].
  all: split; [reflexivity|].
  all: split; [reflexivity|].
  all: intros r R; destruct r as [|[|[|r]]]; [| | |lia].
  all: reflexivity.
Qed.
End Shape.
