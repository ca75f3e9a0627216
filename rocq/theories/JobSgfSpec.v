(** What the records of GTP games should say (C60, C61), apart from the code that writes them. *)
From Verif Require Import Base Bytes PyStr Dict BoardModel SgfPropsModel SgfPropsSpec SgfValueSpec GameplayModel
  ControllerModel GtpGameModel EngineModel SgfTreeModel GameSgfModel GameSgfSpec JobSgfModel.

(** ** The scoring of a game *)

(** What a player reported is the result itself, perhaps in lower case or with a needless ".0". *)
Definition reported_as (result report : bytes) : Prop :=
  let up := map upper_char report in
  up = result ++ str ".0" \/ (up = result /\ forall u, up <> u ++ str ".0").

(** The line about what a player reported. *)
Definition report_line (code : bytes) (report : option bytes) : list bytes :=
  match report with Some t => [code ++ str " final_score: " ++ t] | None => [] end.

(** The extra lines: none, unless somebody reported something else than the result. *)
Definition extra_lines (r : game_result) (scores : option (option bytes * option bytes)) (l : list bytes) : Prop :=
  match scores with
  | None => l = []
  | Some (b, w) =>
      ((forall t, b = Some t \/ w = Some t -> reported_as (r_sgf (gr_base r)) t) /\ l = []) \/
      ((exists t, (b = Some t \/ w = Some t) /\ ~ reported_as (r_sgf (gr_base r)) t) /\
       l = report_line (gr_player_b r) b ++ report_line (gr_player_w r) w)
  end.

(** One line about a result. *)
Definition result_line (r : game_result) : bytes :=
  (match r_winner (gr_base r) with
   | Some Black => gr_player_b r ++ str " beat " ++ gr_player_w r
   | Some White => gr_player_w r ++ str " beat " ++ gr_player_b r
   | None => gr_player_b r ++ str " vs " ++ gr_player_w r
   end) ++ str " " ++
  (if r_jigo (gr_base r) then str "jigo" else r_sgf (gr_base r)) ++
  match r_detail (gr_base r) with Some d => str " (" ++ d ++ str ")" | None => [] end.

Fixpoint lines (l : list bytes) : bytes :=
  match l with
  | [] => []
  | [x] => x
  | x :: r => x ++ [char_lf] ++ lines r
  end.

(** ** The record of a game *)

Section Documents.
Variables (version today : bytes) (engines : colour -> engine).

(** A player is called what its engine calls itself, or else by its code. *)
Definition called (code : bytes) (e : engine) : bytes :=
  match short_description e with None | Some [] => code | Some n => n end.

Definition nonempty (o : option bytes) : option bytes := match o with Some [] => None | _ => o end.

Definition gtp_document {X} (g : gtp_game X) : document :=
  let d :=
    on_root (fun c =>
      put_if (str "GN") PT_simpletext (option_map VText (nonempty (ga_id g))) (
      put (str "PW") PT_simpletext (VText (called (g_code_w (gb_gc (ga_backend g))) (engines White))) (
      put (str "PB") PT_simpletext (VText (called (g_code_b (gb_gc (ga_backend g))) (engines Black))) c)))
    (the_game version today (ga_runner g)) in
  match ga_result g with
  | None => d
  | Some r => on_end (say (describe_scoring r (game_scores g))) d
  end.

(** ** The annotated record *)

Variables (cpu_text : pfloat -> bytes) (now : bytes).

(** The notes at the start, in order; not all of them are always there. *)
Definition about_player (word : bytes) (p : gplayer) (e : engine) : bytes :=
  match long_description e with
  | None | Some [] => word ++ str " " ++ gp_code p
  | Some d => word ++ str " " ++ gp_code p ++ str " " ++ d
  end.
Definition about_time (p : gplayer) (t : option pfloat) : option bytes :=
  option_map (fun x => gp_code p ++ str " cpu time: " ++ cpu_text x ++ str "s") t.
Definition possible_notes (j : game_job) (result : option game_result) (any_moves : bool) : list (option bytes) :=
  [option_map (fun e => str "Event: " ++ e) (gj_event j);
   Some (str "Game id " ++ gj_id j);
   Some (str "Date " ++ now);
   if any_moves then option_map (fun r => str "Result " ++ result_line r) result else None;
   gj_note j;
   match result with Some r => about_time (gj_b j) (gr_cpu_b r) | None => None end;
   match result with Some r => about_time (gj_w j) (gr_cpu_w r) | None => None end;
   Some (about_player (str "Black") (gj_b j) (engines Black));
   Some (about_player (str "White") (gj_w j) (engines White))].
Fixpoint present (l : list (option bytes)) : list bytes :=
  match l with [] => [] | Some x :: r => x :: present r | None :: r => present r end.

Definition say_if (o : option bytes) (c : content) : content := match o with Some s => say s c | None => c end.

Definition has_moves {X} (g : gtp_game X) : bool := match ru_moves (ga_runner g) with [] => false | _ => true end.

Definition job_document {X} (j : game_job) (g : gtp_game X) (message : option bytes) : document :=
  on_end (fun c => say_if (describe_late_errors (gb_gc (ga_backend g))) (say_if message c)) (
  on_root (fun c =>
    say_first (lines (present (possible_notes j (ga_result g) (has_moves g)))) (
    put_if (str "PW") PT_simpletext (if gp_name_from_gtp (gj_w j) then None else Some (VText (gp_code (gj_w j)))) (
    put_if (str "PB") PT_simpletext (if gp_name_from_gtp (gj_b j) then None else Some (VText (gp_code (gj_b j)))) (
    put_if (str "EV") PT_simpletext (option_map VText (gj_event j)) (
    put_if (str "GN") PT_simpletext (option_map VText (gj_name j)) c)))))
  (gtp_document g)).

Definition void_document {X} (j : game_job) (g : gtp_game X) (message : bytes) : document :=
  on_root (put (str "RE") PT_simpletext (VText (str "Void"))) (job_document j g (Some message)).

(** ** What can be recorded *)

Definition all_utf8 (l : list bytes) : Prop := forall s, In s l -> is_utf8 s.
Definition maybe_utf8 (o : option bytes) : Prop := forall s, o = Some s -> is_utf8 s.

Record gtp_recordable {X} (g : gtp_game X) : Prop := mkGtpRecordable {
  gr_runner : recordable (ga_runner g);
  gr_texts : all_utf8 [version; today; g_code_b (gb_gc (ga_backend g)); g_code_w (gb_gc (ga_backend g))];
  gr_named : forall c, maybe_utf8 (short_description (engines c));
  gr_ident : maybe_utf8 (ga_id g);
  gr_score : forall r, ga_result g = Some r -> is_utf8 (describe_scoring r (game_scores g))
}.

Record job_recordable {X} (j : game_job) (g : gtp_game X) (message : option bytes) : Prop := mkJobRecordable {
  jr_game : gtp_recordable g;
  jr_texts : all_utf8 [now; gj_id j; gp_code (gj_b j); gp_code (gj_w j)];
  jr_options : maybe_utf8 (gj_name j) /\ maybe_utf8 (gj_event j) /\ maybe_utf8 (gj_note j);
  jr_long : forall c, maybe_utf8 (long_description (engines c));
  jr_times : forall x, is_utf8 (cpu_text x);
  jr_result : forall r, ga_result g = Some r -> is_utf8 (result_line r);
  jr_end : maybe_utf8 message /\ maybe_utf8 (describe_late_errors (gb_gc (ga_backend g)))
}.
End Documents.
