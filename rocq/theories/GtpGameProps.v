(** Properties of games between GTP engines. *)
From Coq Require Import QArith.
From Verif Require Import Base Bytes PyStr Dict BoardModel BoardSpec CommonModel SgfPropsModel GameplayModel GameplaySpec
  GameplayRunProofs GameplayResultProofs GtpModel ControllerModel ControllerSpec GtpGameModel GtpGameSpec GtpScoreProofs
  GtpGameProofs ControllerProofs GtpTalkProofs GtpDialogueProofs GtpRunProofs.
Open Scope Z_scope.

(** ** C34: combining the players' scores *)

(** The players allowed to score are asked in order; the score is the fair combination of the
    opinions of those who answered, and the answers are kept. *)
Theorem C34_scores_are_combined_fairly :
  forall (X : Type) (ch : colour -> channel X) pick b (s s' : gbackend X) r,
  gb_internal s = false -> score_game ch pick b s = (s', r) ->
  (exists raw l sc, consulted ch (gb_gc s) (gb_scorers s) raw (gb_gc s') /\ gb_raw s' = raw /\
     opinions (map snd raw) l /\ fair_score l sc /\ shown_score sc r) \/
  (exists e, r = Err e /\ consulting_failed ch (gb_gc s) (gb_scorers s) (gb_gc s') e).
Proof. exact @score_game_spec. Qed.
Print Assumptions C34_scores_are_combined_fairly.

(** The specification determines the score. *)
Theorem C34_fair_score_is_unique :
  forall raw l l' a b,
  opinions raw l -> opinions raw l' -> fair_score l a -> fair_score l' b -> a = b.
Proof.
  intros raw l l' a b O O' A B. rewrite (opinions_unique raw l O l' O') in A. exact (fair_score_unique l' a b A B).
Qed.
Print Assumptions C34_fair_score_is_unique.

(** What it says when both players answer. *)
Theorem C34_two_answers :
  forall tb tw l sc, opinions [tb; tw] l -> fair_score l sc ->
  (forall w m w' m', declares tb w m -> declares tw w' m' -> w <> w' -> sc = mkGScore None None true) /\
  (forall w m m', declares tb w m -> declares tw w m' -> same_margin m m' -> sc = mkGScore w m false) /\
  (forall w m m', declares tb w m -> declares tw w m' -> ~ same_margin m m' -> sc = mkGScore w None false) /\
  (forall w m, declares tb w m -> (forall w' m', ~ declares tw w' m') -> sc = mkGScore w m false) /\
  (forall w m, declares tw w m -> (forall w' m', ~ declares tb w' m') -> sc = mkGScore w m false) /\
  ((forall w m, ~ declares tb w m) -> (forall w m, ~ declares tw w m) -> sc = mkGScore None None false).
Proof. intros tb tw l sc. exact (two_opinions tb tw sc l). Qed.
Print Assumptions C34_two_answers.

(** The result made from a score: never a jigo or a winner that was not agreed. *)
Theorem C34_result_of_a_score :
  forall l sc g r, fair_score l sc -> shown_score sc (Ok g) -> result_from_game_score g = Ok r ->
  scored_result (gs_winner g) (gs_margin g) r /\ gs_winner g = gts_winner sc /\
  (gs_margin g = None <-> gts_margin sc = None) /\
  r_detail r =
    (if gts_disagreed sc then Some (str "players disagreed")
     else match gts_margin sc, gts_winner sc with
          | None, None => Some (str "no score reported")
          | None, Some _ => Some (str "unknown margin")
          | _, _ => None
          end).
Proof.
  intros l sc g r F Sh R. unfold result_from_game_score in R. apply result_from_score_spec in R. destruct R as [R D].
  rewrite D. clear D. unfold shown_score in Sh. split; [exact R|].
  destruct sc as [w m d]; cbn [gts_winner gts_margin gts_disagreed] in *.
  destruct m as [[m|neg|]|]; try discriminate Sh; injection Sh as ->; cbn.
  - split; [reflexivity|]. split; [split; discriminate|]. destruct d; reflexivity.
  - split; [reflexivity|]. split; [split; reflexivity|]. destruct d, w; reflexivity.
Qed.
Print Assumptions C34_result_of_a_score.

(** Two engines that answer every command from a table. *)
Definition tabled (t : list (string * (bool * string))) : channel (bytes * nat) :=
  mkChannel _
    (fun x cmd args => ((cmd, snd x), None))
    (fun x => (([], Datatypes.S (snd x)),
               inl (match find (fun e => bytes_eqb (str (fst e)) (fst x)) t with
                    | Some (_, (f, text)) => (f, str text)
                    | None => (true, str "unknown command")
                    end)))
    (fun x => (x, None)).
Definition two_engines (tb tw : list (string * (bool * string))) (c : colour) : channel (bytes * nat) :=
  match c with Black => tabled tb | White => tabled tw end.
Definition both : gctl (bytes * nat) :=
  mkGC (Some (new_controller ([], O) (str "player one"))) (Some (new_controller ([], O) (str "player two")))
       (str "one") (str "two") true [].
Definition backend_for (scorers : list colour) : gbackend (bytes * nat) :=
  mkGB both 9 (75, 1%nat) (str "7.5") false false scorers false CompNo None [].
Definition empty9 : board := match new_board 9 with Ok b => b | Err _ => mkBoard 0 [] false end.
Definition scores (b w : bool * string) : gbackend (bytes * nat) * res game_score :=
  let known := ("known_command"%string, (false, "true"%string)) in
  score_game (two_engines [known; ("final_score"%string, b)] [known; ("final_score"%string, w)]) (fun _ => O)
    empty9 (backend_for [Black; White]).

Example C34_demo_agree :
  match scores (false, "B+3.5"%string) (false, "b+3.50"%string) with
  | (s, r) => r = Ok (mkScore (Some Black) (Some (35, 1%nat)) false) /\ List.length (gb_raw s) = 2%nat
  end.
Proof. vm_compute. repeat split. Qed.
Example C34_demo_disagree :
  snd (scores (false, "B+3.5"%string) (false, "W+0.5"%string)) = Ok (mkScore None None true) /\
  snd (scores (false, "0"%string) (false, "W+0.5"%string)) = Ok (mkScore None None true) /\
  snd (scores (false, "W+1.5"%string) (false, "W+0.5"%string)) = Ok (mkScore (Some White) None false) /\
  snd (scores (false, "W+1.5"%string) (true, "cannot score"%string)) = Ok (mkScore (Some White) (Some (15, 1%nat)) false) /\
  snd (scores (false, "W+-1.5"%string) (false, "who knows"%string)) = Ok (mkScore (Some White) None false) /\
  snd (scores (true, "cannot"%string) (false, "?"%string)) = Ok (mkScore None None false) /\
  snd (scores (false, "W+inf"%string) (true, ""%string)) = Err OverflowError.
Proof. vm_compute. repeat split. Qed.
Example C34_demo_declares : declares (str "B+3.5") (Some Black) (Some (FNum (35, 1%nat))).
Proof. apply read_score_declares. vm_compute. reflexivity. Qed.

(** ** C48: running a game between GTP engines *)

(** What is said to each engine during a run, call by call.  With C32_run (which describes the
    calls) this determines the whole conversation. *)
Theorem C48_dialogue :
  forall (X : Type) (ch : colour -> channel X) sanitise pick after,
  harmless after ->
  forall s0 fuel r r' s1 log out, engaged ch s0 ->
  run (logged (gtp_backend (fun c => recorded (ch c)) sanitise pick after)) fuel pick r (s0, []) = (r', (s1, log), out) ->
  (forall c, exists k0 tr, g_get c (gb_gc s0) = Some k0 /\ said_to c s0 s1 tr /\
     dialogue (player_party s0 c k0) sanitise (gb_size s0) c (trace k0) log tr) /\
  (forall before ev rest e, log = before ++ ev :: rest -> raised ev = Some e ->
     e <> bad_gtp /\ (e = channel_error -> existsb is_end before = false)).
Proof.
  intros X ch sanitise pick after Hm s0 fuel r r' s1 log out En R.
  pose proof (run_dialogue ch sanitise pick after Hm s0 fuel r r' s1 log out En R) as D. split.
  - intros c. destruct (sl_talk _ _ _ _ D c) as (k0 & k & tr & G0 & G & (T & _) & Dl). exists k0, tr.
    split; [exact G0|]. split; [exists k0, k; auto|exact Dl].
  - intros before ev rest e E Ra. exact (proj2 (sl_raise _ _ _ _ D before ev rest e E Ra)).
Qed.
Print Assumptions C48_dialogue.

(** A whole Gtp_game: failure responses are never raised, and low-level errors only if they
    happen before the game is over.  Otherwise the game has a result. *)
Theorem C48_run :
  forall (X : Type) (ch : colour -> channel X) sanitise pick after,
  harmless after ->
  forall fuel (g g' : gtp_game (X * list cevent)) out size limit stones r1 s1 log o,
  engaged ch (ga_backend g) -> 2 <= size <= 25 -> ready (ga_runner g) size limit stones ->
  (forall p, In p (match stones with Some l => l | None => [] end) -> on_board size p) ->
  run (logged (gtp_backend (fun c => recorded (ch c)) sanitise pick after)) fuel pick (ga_runner g) (ga_backend g, [])
    = (r1, (s1, log), o) ->
  run_gtp_game (fun c => recorded (ch c)) sanitise pick after fuel g = (g', out) ->
  match out with
  | Ok _ => o = Ok tt /\ ga_runner g' = r1 /\ g_cautious (gb_gc (ga_backend g')) = true /\
      exists res gr eb ew, ru_result r1 = Some res /\ ga_result g' = Some gr /\
        names_result (g_code_b (gb_gc (ga_backend g))) (g_code_w (gb_gc (ga_backend g))) (ga_id g) res gr /\
        ga_cpu_errors g' = Some (eb, ew) /\
        forall c, exists k evs, g_get c (gb_gc s1) = Some k /\ said_to c s1 (ga_backend g') evs /\
          cpu_talk (player_party (ga_backend g) c k) (trace k) evs
            (match c with Black => gr_cpu_b gr | White => gr_cpu_w gr end)
            (match c with Black => eb | White => ew end)
  | Err e => e <> bad_gtp /\ (e = channel_error -> o = Err e /\ filter is_end log = [])
  end.
Proof. exact @game_correct. Qed.
Print Assumptions C48_run.

(** Closing the players: unless a channel raises something unexpected, both controllers are
    closed, and the error messages of both are collected. *)
Theorem C48_close_players :
  forall (X : Type) (ch : colour -> channel X) (g g' : gctl (X * list cevent)) kb kw r,
  g_get Black g = Some kb -> g_get White g = Some kw ->
  close_players (fun d => recorded (ch d)) g = (g', r) ->
  exists kb' eb newb, g_get Black g' = Some kb' /\ trace kb' = trace kb ++ eb /\
    c_errors kb' = c_errors kb ++ newb /\ Forall2 (message_about (c_name kb)) newb (texts trouble eb) /\
  (existsb unexpected eb = false ->
   exists kw' ew neww, g_get White g' = Some kw' /\ trace kw' = trace kw ++ ew /\
     c_errors kw' = c_errors kw ++ neww /\ Forall2 (message_about (c_name kw)) neww (texts trouble ew) /\
     c_closed kb' = true /\
   (existsb unexpected ew = false ->
      r = CRet tt /\ c_closed kw' = true /\ g_late g' = g_late g ++ c_errors kb' ++ c_errors kw' /\
      (describe_late_errors g' = None <-> g_late g = [] /\ c_errors kb' = [] /\ c_errors kw' = []))).
Proof.
  intros X ch g g' kb kw r Gb Gw C. destruct (close_both ch g g' kb kw r Gb Gw C) as (kb' & eb & G1 & E1 & U1).
  destruct (ef_errors _ _ _ _ E1) as (newb & N1 & F1). exists kb', eb, newb. split; [exact G1|]. split; [exact (ef_trace _ _ _ _ E1)|].
  split; [exact N1|]. split; [exact F1|]. intros Ub. destruct (U1 Ub) as (kw' & ew & G2 & E2 & C1 & U2).
  destruct (ef_errors _ _ _ _ E2) as (neww & N2 & F2). exists kw', ew, neww. split; [exact G2|]. split; [exact (ef_trace _ _ _ _ E2)|].
  split; [exact N2|]. split; [exact F2|]. split; [exact C1|]. intros Uw. destruct (U2 Uw) as (R & C2 & L).
  split; [exact R|]. split; [exact C2|]. split; [exact L|]. unfold describe_late_errors. rewrite L.
  split.
  - intros D. destruct (g_late g ++ c_errors kb' ++ c_errors kw') eqn:E; [|discriminate].
    apply app_eq_nil in E. destruct E as [A E]. apply app_eq_nil in E. destruct E as [B E]. auto.
  - intros (-> & -> & ->). reflexivity.
Qed.
Print Assumptions C48_close_players.

(** Two engines playing a short game. *)
Definition demo_game (size : Z) (limit : option Z) : gtp_game ((bytes * nat) * list cevent) :=
  mkGame (with_state 1 (new_runner size (75, 1%nat) limit))
    (mkGB (mkGC (Some (new_controller (([], O), []) (str "player one"))) (Some (new_controller (([], O), []) (str "player two")))
            (str "one") (str "two") false []) size (75, 1%nat) (str "7.5") false true [Black; White] false CompNo None [])
    (Some (str "g1")) None None.
Definition play_demo (tb tw : list (string * (bool * string))) : gtp_game ((bytes * nat) * list cevent) * res unit :=
  run_gtp_game (fun c => recorded (two_engines tb tw c)) (fun s => s) (fun _ => O) None 20 (demo_game 9 None).

Open Scope string_scope.
Example C48_demo_hypotheses :
  engaged (two_engines [] []) (ga_backend (demo_game 9 None)) /\ ready (ga_runner (demo_game 9 None)) 9 None None.
Proof.
  split.
  - split; [reflexivity|]. intros [|]; eexists; (split; [reflexivity|]); (split; [|reflexivity]);
      exists (([] : bytes), O); eexists _, [], []; constructor.
  - unfold ready. cbn. auto 10.
Qed.
Example C48_demo_passes :
  match play_demo [("known_command", (false, "true")); ("genmove", (false, "pass")); ("final_score", (false, "B+1"));
                   ("play", (false, "")); ("gomill-cpu_time", (false, "12.5"))]
                  [("genmove", (false, "PASS")); ("play", (false, ""))] with
  | (g, out) => out = Ok tt /\ option_map describe (ga_result g) = Some (str "one beat two B+1") /\
      option_map gr_cpu_b (ga_result g) = Some (Some (FNum (125, 1%nat))) /\ ga_cpu_errors g = Some (false, false)
  end.
Proof. vm_compute. repeat split. Qed.
Example C48_demo_failure_response :
  (* an engine that rejects genmove loses *)
  match play_demo [("genmove", (true, "I am lost"))] [] with
  | (g, out) => out = Ok tt /\ option_map gr_winner (ga_result g) = Some (Some (str "two")) /\
      option_map (fun r => r_forfeit (gr_base r)) (ga_result g) = Some true
  end /\
  (* an engine that calls the move illegal wins; one that fails otherwise loses *)
  match play_demo [("genmove", (false, "C3"))] [("play", (true, "illegal move"))] with
  | (g, out) => out = Ok tt /\
      option_map describe (ga_result g) = Some (str "two beat one W+F (forfeit by one: two claims move C3 is illegal)")
  end /\
  match play_demo [("genmove", (false, "C3"))] [("play", (true, "oops"))] with
  | (g, out) => out = Ok tt /\ option_map gr_winner (ga_result g) = Some (Some (str "one"))
  end.
Proof. vm_compute. repeat split. Qed.
(** An engine that dies when it is asked to move, and one that dies when it is told of a move. *)
Definition mortal (t : list (string * (bool * string))) (on : string) : channel (bytes * nat) :=
  mkChannel _
    (fun x cmd args => ((cmd, snd x), if bytes_eqb cmd (str on) then Some (XChan KClosed (str "engine has closed")) else None))
    (ch_get (tabled t)) (ch_close (tabled t)).
Example C48_demo_channel_error :
  match run_gtp_game (fun c => recorded (mortal [] "genmove")) (fun s => s) (fun _ => O) None 20 (demo_game 9 None) with
  | (g, out) => out = Err channel_error /\ ga_result g = None
  end /\
  (* after the end of the game it does not matter *)
  match run_gtp_game (fun c => recorded (mortal [("known_command", (false, "true")); ("play", (false, "")); ("genmove", (false, "pass")); ("gomill-genmove_ex", (false, "pass"))] "final_score"))
          (fun s => s) (fun _ => O) None 20 (demo_game 9 None) with
  | (g, out) => out = Ok tt /\ option_map describe (ga_result g) = Some (str "one vs two ? (no score reported)") /\
      ga_cpu_errors g = Some (false, false)
  end.
Proof. vm_compute. repeat split. Qed.
