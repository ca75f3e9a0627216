(** Specification vocabulary for games between GTP engines (C34, C48). *)
From Coq Require Import QArith.
From Verif Require Import Base Bytes PyStr Dict BoardModel BoardSpec CommonModel SgfPropsModel GameplayModel GameplaySpec
  GtpModel ControllerModel ControllerSpec GtpGameModel.
Open Scope Z_scope.

(** ** What a final_score response says *)

(** The margin given by the text after "B+" or "W+": a positive number, or none. *)
Inductive margin_text : bytes -> option pfloat -> Prop :=
| mt_number s x : float_of s = Some (FNum x) -> (0 < value x)%Q -> margin_text s (Some (FNum x))
| mt_infinite s : float_of s = Some (FInf false) -> margin_text s (Some (FInf false))
| mt_nan s : float_of s = Some FNan -> margin_text s (Some FNan)
| mt_not_positive s x : float_of s = Some (FNum x) -> ~ (0 < value x)%Q -> margin_text s None
| mt_minus_infinite s : float_of s = Some (FInf true) -> margin_text s None
| mt_bad s : float_of s = None -> margin_text s None.

(** The letters that name a player, in either case. *)
Definition names_player (l : ascii) (c : colour) : Prop :=
  match c with Black => l = "B"%char \/ l = "b"%char | White => l = "W"%char \/ l = "w"%char end.

(** [declares text w m]: the response declares the winner [w] ([None] for a jigo) with the
    margin [m]. *)
Inductive declares : bytes -> option colour -> option pfloat -> Prop :=
| dc_jigo : declares (str "0") None (Some (FNum (0, O)))
| dc_win l c rest m : names_player l c -> margin_text rest m -> declares (l :: "+"%char :: rest) (Some c) m.

(** The opinions expressed by a list of responses: those of the responses that declare a
    result, in order. *)
Inductive opinions : list bytes -> list (option colour * option pfloat) -> Prop :=
| op_nil : opinions [] []
| op_says text w m rest l : declares text w m -> opinions rest l -> opinions (text :: rest) ((w, m) :: l)
| op_silent text rest l : (forall w m, ~ declares text w m) -> opinions rest l -> opinions (text :: rest) l.

(** Numbers that are the same (a "not a number" is not the same as anything). *)
Definition same_margin (a b : option pfloat) : Prop :=
  match a, b with
  | None, None => True
  | Some (FNum x), Some (FNum y) => (value x == value y)%Q
  | Some (FInf x), Some (FInf y) => x = y
  | _, _ => False
  end.

(** How opinions are to be combined. *)
Definition fair_score (l : list (option colour * option pfloat)) (sc : gtp_score) : Prop :=
  (* nobody says anything: unknown *)
  (l = [] -> sc = mkGScore None None false) /\
  (* two disagree about the winner: unknown, and marked so *)
  (forall a b, In a l -> In b l -> fst a <> fst b -> sc = mkGScore None None true) /\
  (* all agree about the winner: that one wins; the margin is that of the only opinion, or the
     first one if all are the same; if two differ it is unknown *)
  (forall w m rest, l = (w, m) :: rest -> (forall a, In a rest -> fst a = w) ->
     gts_winner sc = w /\ gts_disagreed sc = false /\
     ((forall a, In a rest -> same_margin m (snd a)) -> gts_margin sc = m) /\
     (forall a, In a rest -> ~ same_margin m (snd a) -> gts_margin sc = None)).

(** ** Asking for the scores *)

(** The scorers are asked for their final_score one after another, and [raw] holds what those
    who answered said. *)
Inductive consulted {X} (ch : colour -> channel X) (g : gctl X) : list colour -> list (colour * bytes) -> gctl X -> Prop :=
| cs_nil : consulted ch g [] [] g
| cs_answer scorers raw g1 c text g2 :
    consulted ch g scorers raw g1 ->
    maybe_send_command ch g1 c (str "final_score") [] = (g2, CRet (Some text)) ->
    consulted ch g (scorers ++ [c]) (raw ++ [(c, text)]) g2
| cs_no_answer scorers raw g1 c g2 :
    consulted ch g scorers raw g1 ->
    maybe_send_command ch g1 c (str "final_score") [] = (g2, CRet None) ->
    consulted ch g (scorers ++ [c]) raw g2.

(** Asking went wrong: somebody's channel failed (or there is no such player), and [r] says
    how. *)
Definition consulting_failed {X} (ch : colour -> channel X) (g : gctl X) (scorers : list colour) (g' : gctl X)
  (e : exn) : Prop :=
  exists before c rest raw g1 r, scorers = before ++ c :: rest /\ consulted ch g before raw g1 /\
    maybe_send_command ch g1 c (str "final_score") [] = (g', r) /\ to_res r = Err e.

(** The score as Game_runner sees it. *)
Definition shown_score (sc : gtp_score) (r : res game_score) : Prop :=
  match gts_margin sc with
  | None => r = Ok (mkScore (gts_winner sc) None (gts_disagreed sc))
  | Some (FNum m) => r = Ok (mkScore (gts_winner sc) (Some m) (gts_disagreed sc))
  | Some (FInf _) => r = Err OverflowError
  | Some FNan => r = Err ValueError
  end.

(** ** What is said on the channel to an engine *)

(** How the exchange for one command went. *)
Inductive reply : Type :=
| Success (text : bytes)
| Failure (text : bytes)
| Broken (k : chan_kind) (text : bytes)        (* a low-level error *)
| Strange (e : exn).                           (* any other exception *)

Inductive exchanged (command : bytes) (args : list bytes) : list cevent -> reply -> Prop :=
| xd_success text : exchanged command args [EvSend command args None; EvGet (inl (false, text))] (Success text)
| xd_failure text : exchanged command args [EvSend command args None; EvGet (inl (true, text))] (Failure text)
| xd_unsent k text : exchanged command args [EvSend command args (Some (XChan k text))] (Broken k text)
| xd_unread k text : exchanged command args [EvSend command args None; EvGet (inr (XChan k text))] (Broken k text)
| xd_odd_send e : exchanged command args [EvSend command args (Some (XOther e))] (Strange e)
| xd_odd_read e : exchanged command args [EvSend command args None; EvGet (inr (XOther e))] (Strange e).

(** There has been a low-level error. *)
Definition broken (tr : list cevent) : bool := match texts low_level_error tr with [] => false | _ => true end.

(** One player, as far as the conversation with its engine is concerned. *)
Record party : Type := mkParty {
  pa_name : bytes;                 (* the name in error messages *)
  pa_aliases : dict bytes;
  pa_code : bytes;
  pa_claims : bool;                (* the player may claim *)
  pa_scores : nat                  (* how often the player is asked for a score *)
}.

Section Talk.
Variable p : party.
Definition says (command : bytes) : bytes := meaning (pa_aliases p) command.

(** Whether the engine knows a command: it may be asked.  [ended]: the game is over, so that
    low-level errors are not raised any more. *)
Inductive query (ended : bool) (command : bytes) : list cevent -> res bool -> Prop :=
| qy_remembered b : query ended command [] (Ok b)
| qy_success evs text : exchanged (says (str "known_command")) [says command] evs (Success text) ->
    query ended command evs (Ok (bytes_eqb text (str "true")))
| qy_failure evs text : exchanged (says (str "known_command")) [says command] evs (Failure text) ->
    query ended command evs (Ok false)
| qy_broken evs k text : exchanged (says (str "known_command")) [says command] evs (Broken k text) ->
    query ended command evs (if ended then Ok false else Err channel_error)
| qy_strange evs e : exchanged (says (str "known_command")) [says command] evs (Strange e) ->
    query ended command evs (Err (other_exn e)).

(** A command sent only if the engine knows it; failures are ignored.  [tr] is what was said
    before. *)
Inductive optional_talk (ended : bool) (tr : list cevent) (command : bytes) : list cevent -> res (option bytes) -> Prop :=
| ot_unknown q : query ended command q (Ok false) -> optional_talk ended tr command q (Ok None)
| ot_raised q e : query ended command q (Err e) -> optional_talk ended tr command q (Err e)
| ot_given_up q : query ended command q (Ok true) -> ended = true -> broken (tr ++ q) = true ->
    optional_talk ended tr command q (Ok None)
| ot_sent q evs rp : query ended command q (Ok true) -> (ended = true -> broken (tr ++ q) = false) ->
    exchanged (says command) [] evs rp ->
    optional_talk ended tr command (q ++ evs)
      (match rp with
       | Success text => Ok (Some text)
       | Failure _ => Ok None
       | Broken _ _ => if ended then Ok None else Err channel_error
       | Strange e => Err (other_exn e)
       end).

(** Reading a response to genmove. *)
Inductive move_reply (size : Z) (may_claim : bool) (text : bytes) : action -> Prop :=
| mr_resign : map lower_char text = str "resign" -> move_reply size may_claim text AResign
| mr_claim : may_claim = true -> map lower_char text = str "claim" -> move_reply size may_claim text AClaim
| mr_move m : map lower_char text <> str "resign" -> (may_claim = true -> map lower_char text <> str "claim") ->
    move_from_vertex (map lower_char text) size = Ok m -> move_reply size may_claim text (AMove m)
| mr_nonsense e : map lower_char text <> str "resign" -> (may_claim = true -> map lower_char text <> str "claim") ->
    move_from_vertex (map lower_char text) size = Err e ->
    move_reply size may_claim text (AForfeit (str "attempted ill-formed move " ++ text)).

(** Asking for a move (before the game is over): a failure response forfeits the game. *)
Definition genmove_talk (size : Z) (command : bytes) (args : list bytes) (may_claim : bool) (evs : list cevent) (r : res action) : Prop :=
  exists rp, exchanged (says command) args evs rp /\
    match rp with
    | Success text => exists a, r = Ok a /\ move_reply size may_claim text a
    | Failure text => exists msg, r = Ok (AForfeit msg) /\ message_about (pa_name p) msg text
    | Broken _ _ => r = Err channel_error
    | Strange e => r = Err (other_exn e)
    end.
Inductive move_talk (size : Z) (c : colour) : list cevent -> res action -> Prop :=
| mt_plain evs r : pa_claims p = false ->
    genmove_talk size (str "genmove") [colour_letter c] false evs r -> move_talk size c evs r
| mt_cannot_claim q evs r : pa_claims p = true -> query false (str "gomill-genmove_ex") q (Ok false) ->
    genmove_talk size (str "genmove") [colour_letter c] false evs r -> move_talk size c (q ++ evs) r
| mt_can_claim q evs r : pa_claims p = true -> query false (str "gomill-genmove_ex") q (Ok true) ->
    genmove_talk size (str "gomill-genmove_ex") [colour_letter c; str "claim"] true evs r -> move_talk size c (q ++ evs) r
| mt_raised q e : pa_claims p = true -> query false (str "gomill-genmove_ex") q (Err e) -> move_talk size c q (Err e).

(** Telling a player about its opponent's move. *)
Definition late_status (r : res status) : Prop :=
  r = Ok (SError (str "late low-level error from player " ++ pa_code p)).
Inductive play_talk (ended : bool) (tr : list cevent) (opponent : colour) (m : gmove) : list cevent -> res status -> Prop :=
| pt_unwritable e : format_vertex m = Err e -> play_talk ended tr opponent m [] (Err e)
| pt_given_up v r : format_vertex m = Ok v -> ended = true -> broken tr = true -> late_status r ->
    play_talk ended tr opponent m [] r
| pt_sent v evs rp r : format_vertex m = Ok v -> (ended = true -> broken tr = false) ->
    exchanged (says (str "play")) [colour_letter opponent; v] evs rp ->
    (match rp with
     | Success _ => r = Ok SAccept
     | Failure text =>
         if bytes_eqb text (str "illegal move")
         then r = Ok (SReject (pa_code p ++ str " claims move " ++ v ++ str " is illegal"))
         else exists msg, r = Ok (SError msg) /\ message_about (pa_name p) msg text
     | Broken _ _ => if ended then late_status r else r = Err channel_error
     | Strange e => r = Err (other_exn e)
     end) ->
    play_talk ended tr opponent m evs r.

(** At most [n] requests for a score. *)
Inductive score_talk (ended : bool) (tr : list cevent) : nat -> list cevent -> Prop :=
| st_end n : score_talk ended tr n []
| st_ask n evs r evs' : optional_talk ended tr (str "final_score") evs r ->
    score_talk ended (tr ++ evs) n evs' -> score_talk ended tr (Datatypes.S n) (evs ++ evs').

(** What is said to the player [who] for one call made by Game_runner. *)
Definition segment (sanitise : bytes -> bytes) (size : Z) (who : colour) (ended : bool) (tr : list cevent) (ev : event)
  (evs : list cevent) : Prop :=
  match ev with
  | EGetMove c r => if colour_eqb c who then ended = false -> move_talk size who evs r else evs = []
  | EComment c r =>
      if colour_eqb c who then
        exists t, optional_talk ended tr (str "gomill-explain_last_move") evs t /\
          r = match t with
              | Ok (Some text) => Ok (match sanitise text with [] => None | x => Some x end)
              | Ok None => Ok None
              | Err e => Err e
              end
      else evs = []
  | ENotify c m r => if colour_eqb c who then play_talk ended tr (opponent_of who) m evs r else evs = []
  | EScore _ _ => score_talk ended tr (pa_scores p) evs
  | _ => evs = []
  end.

(** The whole conversation during a run: [tr0] was said before. *)
Inductive dialogue (sanitise : bytes -> bytes) (size : Z) (who : colour) (tr0 : list cevent) : list event -> list cevent -> Prop :=
| dl_nil : dialogue sanitise size who tr0 [] []
| dl_event log tr ev evs : dialogue sanitise size who tr0 log tr ->
    segment sanitise size who (existsb is_end log) (tr0 ++ tr) ev evs ->
    dialogue sanitise size who tr0 (log ++ [ev]) (tr ++ evs).
End Talk.

(** The exception raised by a call made by Game_runner. *)
Definition raised (ev : event) : option exn :=
  match ev with
  | EGetMove _ (Err e) | EEnd (Err e) | EComment _ (Err e) | ENotify _ _ (Err e) | EAfter _ _ _ (Err e)
  | EScore _ (Err e) | EStart _ _ (Err e) | EFree _ (Err e) | ENotifyFree _ (Err e) | ENotifyFixed _ _ _ (Err e) => Some e
  | _ => None
  end.

(** The party of [s] that plays [c], with controller [k]. *)
Definition scorer_count (c : colour) (l : list colour) : nat := List.length (filter (colour_eqb c) l).
Definition player_party {X} (s : gbackend X) (c : colour) (k : controller X) : party :=
  mkParty (c_name k) (c_aliases k) (g_code c (gb_gc s)) (claim_allowed c s)
          (if gb_internal s then O else scorer_count c (gb_scorers s)).

(** ** Whole games *)

(** Both players' engines are connected, and the game is not known to be over. *)
Definition engaged {X} (ch : colour -> channel X) (s : gbackend (X * list cevent)) : Prop :=
  g_cautious (gb_gc s) = false /\
  forall c, exists k, g_get c (gb_gc s) = Some k /\ reached (ch c) k /\ c_closed k = false.

(** A callback that leaves the backend alone and does not raise the GTP exceptions. *)
Definition harmless {S} (after : option (colour -> gmove -> board -> S -> S * res unit)) : Prop :=
  forall f, after = Some f -> forall c m b s,
  fst (f c m b s) = s /\ forall e, snd (f c m b s) = Err e -> e <> bad_gtp /\ e <> channel_error.

(** What was said to [c] between the states [s] and [s'] is [tr]. *)
Definition said_to {X} (c : colour) (s s' : gbackend (X * list cevent)) (tr : list cevent) : Prop :=
  exists k k', g_get c (gb_gc s) = Some k /\ g_get c (gb_gc s') = Some k' /\ trace k' = trace k ++ tr.

(** Asking for the time used, after the game. *)
Inductive cpu_talk (p : party) (tr : list cevent) : list cevent -> option pfloat -> bool -> Prop :=
| cp_unknown q : query p true (str "gomill-cpu_time") q (Ok false) -> cpu_talk p tr q None false
| cp_asked q evs t time err : query p true (str "gomill-cpu_time") q (Ok true) ->
    optional_talk p true (tr ++ q) (str "gomill-cpu_time") evs (Ok t) ->
    (match t with
     | Some s => match float_of s with Some f => time = Some f /\ err = false | None => time = None /\ err = true end
     | None => time = None /\ err = true
     end) ->
    cpu_talk p tr (q ++ evs) time err
| cp_odd q evs e : query p true (str "gomill-cpu_time") q (Ok true) ->
    optional_talk p true (tr ++ q) (str "gomill-cpu_time") evs (Err e) -> e = ValueError \/ e = TypeError ->
    cpu_talk p tr (q ++ evs) None true.

(** The Game_result for a result. *)
Definition names_result (code_b code_w : bytes) (id : option bytes) (r : result) (gr : game_result) : Prop :=
  gr_player_b gr = code_b /\ gr_player_w gr = code_w /\ gr_id gr = id /\
  r_winner (gr_base gr) = r_winner r /\ r_jigo (gr_base gr) = r_jigo r /\ r_forfeit (gr_base gr) = r_forfeit r /\
  r_sgf (gr_base gr) = r_sgf r /\
  (r_forfeit r = false -> r_detail (gr_base gr) = r_detail r) /\
  (forall c d, r_forfeit r = true -> r_winner r = Some c -> r_detail r = Some d ->
     r_detail (gr_base gr) =
       Some (str "forfeit by " ++ match c with Black => code_w | White => code_b end ++ str ": " ++ d)).
