(** Property theorems for texts from engines and engine descriptions (C58), and for checks of
    players (C59). *)
From Verif Require Import Base Bytes PyStr Dict SgfPropsModel SgfPropsSpec GtpModel ControllerModel ControllerSpec
  GameSgfSpec GameSgfProofs EngineModel EngineSpec EngineProofs EngineDialogueProofs.
Open Scope Z_scope.

(** ** C58: texts and descriptions *)

(** [sanitise_utf8], however Python's decoder divides bad bytes into characters: the result is
    always UTF-8; a text that is UTF-8 is left alone; any other is repaired, keeping every good
    character; and nothing becomes empty. *)
Theorem C58_sanitise_utf8 :
  forall more s,
  is_utf8 (sanitise_utf8 more s) /\
  (is_utf8 s -> sanitise_utf8 more s = s) /\
  (~ is_utf8 s -> repaired s (sanitise_utf8 more s)) /\
  (s <> [] -> sanitise_utf8 more s <> []) /\
  sanitise_utf8 more (sanitise_utf8 more s) = sanitise_utf8 more s.
Proof.
  intros more s. split; [apply sanitise_utf8_proof|]. split; [apply sanitise_valid|]. split; [apply sanitise_repaired|].
  split; [apply sanitise_nonempty|apply sanitise_idempotent].
Qed.
Print Assumptions C58_sanitise_utf8.

(** Making a description from what the engine said to 'name', 'version' and
    'gomill-describe_engine' (nothing, if it failed or was not asked): the raw attributes are what
    it said, the others are None or the sanitised text; clean_version is the version without the
    engine's name, cut if it is long.  The one failure is an IndexError, for an unreadable version. *)
Theorem C58_attributes :
  forall sanitise n v d,
  let text (r : option bytes) := option_map sanitise (given_text r) in
  match new_engine sanitise n v d with
  | Ok e =>
      ed_raw_name e = n /\ ed_raw_version e = v /\
      ed_name e = text n /\ ed_version e = text v /\ ed_description e = text d /\
      match ed_version e, ed_clean e with
      | None, None => True
      | Some u, Some c => clean_version (ed_name e) u c
      | _, _ => False
      end
  | Err x => x = IndexError /\ exists u, text v = Some u /\ unreadable (text n) u
  end.
Proof.
  intros sanitise n v d text. assert (forall r, text r = sanitised sanitise r) as E by (intros [[|]|]; reflexivity).
  rewrite !E. pose proof (new_engine_spec sanitise n v d) as H. destruct (new_engine sanitise n v d) as [e|x]; [|exact H].
  exact H.
Qed.
Print Assumptions C58_attributes.

(** The clean version is determined, and it is a part of the version. *)
Theorem C58_clean_version :
  forall name version c, clean_version name version c ->
  (forall c', clean_version name version c' -> c' = c) /\ exists a b, version = a ++ c ++ b.
Proof.
  intros name version c H. split; [|eapply clean_part; exact H]. intros c' H'.
  destruct (fix_version_spec name version) as (F & _). apply F in H, H'. congruence.
Qed.
Print Assumptions C58_clean_version.

(** The descriptions. *)
Theorem C58_short_description :
  forall e, short_description e =
  match ed_name e, ed_clean e with
  | None, _ => None
  | Some n, None => Some n
  | Some n, Some v => if (List.length v <=? 32)%nat then Some (n ++ str ":" ++ v) else Some n
  end.
Proof.
  intros e. unfold short_description. destruct (ed_name e) as [n|]; [|reflexivity]. destruct (ed_clean e) as [v|]; [|reflexivity].
  destruct (Nat.leb_spec (List.length v) 32), (Z.ltb_spec 32 (Z.of_nat (List.length v))); try reflexivity; lia.
Qed.
Print Assumptions C58_short_description.
Theorem C58_long_description :
  forall e, long_description e =
  match ed_description e, ed_name e, ed_clean e with
  | Some d, _, _ => Some d
  | None, Some n, Some v => Some (n ++ str ":" ++ v)
  | None, Some n, None => Some n
  | None, None, Some v => Some (str "version " ++ v)
  | None, None, None => None
  end.
Proof. intros e. unfold long_description. destruct (ed_description e), (ed_name e), (ed_clean e); reflexivity. Qed.
Print Assumptions C58_long_description.

(** Whatever bytes the engine sends, the descriptions are UTF-8: cutting the version never cuts a
    character. *)
Theorem C58_descriptions_are_utf8 :
  forall more n v d e, new_engine (sanitise_utf8 more) n v d = Ok e ->
  (forall s, short_description e = Some s -> is_utf8 s) /\ (forall s, long_description e = Some s -> is_utf8 s) /\
  (forall s, ed_name e = Some s -> is_utf8 s /\ s <> []) /\ (forall s, ed_clean e = Some s -> is_utf8 s).
Proof.
  intros more n v d e H. destruct (describe_utf8 (sanitise_utf8 more) n v d e (sanitise_utf8_proof more) H) as (A & B & C & D).
  split; [exact A|]. split; [exact B|]. split; [|exact D]. intros s E. split; [exact (C s E)|].
  pose proof (new_engine_spec (sanitise_utf8 more) n v d) as S. rewrite H in S. destruct S as (_ & _ & En & _). rewrite E in En.
  destruct n as [[|c r]|]; cbn in En; try discriminate. assert (s = sanitise_utf8 more (c :: r)) as -> by congruence.
  apply sanitise_nonempty. discriminate.
Qed.
Print Assumptions C58_descriptions_are_utf8.

(** Asking an engine, over any channel and in any state of the controller: 'name', 'version', and
    whether it knows 'gomill-describe_engine', and that if it does; in this order, stopping at the
    first error that is not a failure response, which is passed on. *)
Theorem C58_from_controller :
  forall sanitise (X : Type) (ch : channel X) c c' r, from_controller sanitise ch c = (c', r) ->
  exists rs, until ch enough c describing c' rs /\
    interview (fun n v d => match new_engine sanitise n v d with Ok e => CRet e | Err x => CExn x end) rs r.
Proof. intros sanitise X ch c c' r H. exact (from_controller_spec sanitise ch c c' r H). Qed.
Print Assumptions C58_from_controller.

(** ** C59: checking a player *)

(** A working directory that doesn't exist, or an engine that can't be started: the check fails
    and nothing is sent. *)
Theorem C59_not_started :
  forall (X : Type) (ch : channel X) isdir started p size_text komi_text,
  (forall d, cp_cwd p = Some d -> isdir d = false ->
     check_player ch isdir started p size_text komi_text = (CheckFailed (str "bad working directory: " ++ d), None)) /\
  (forall text, (forall d, cp_cwd p = Some d -> isdir d = true) -> started = inr text ->
     exists msg, check_player ch isdir started p size_text komi_text = (CheckFailed msg, None) /\ message_about (cp_code p) msg text).
Proof.
  intros X ch isdir started p st kt. unfold check_player. split.
  - intros d -> ->. reflexivity.
  - intros text D ->. exists (str "error starting subprocess for " ++ cp_code p ++ colon_lf ++ text). split.
    + destruct (cp_cwd p) as [d|]; [rewrite (D d eq_refl)|]; reflexivity.
    + exists (str "error starting subprocess for "). unfold colon_lf. rewrite <- !app_assoc. reflexivity.
Qed.
Print Assumptions C59_not_started.

(** Otherwise: the aliases are set; the protocol version is checked, the startup commands are
    sent, then boardsize, clear_board and komi, and the controller is closed; each of them only if
    all went well before.  The first thing wrong is what the check fails with (errors other than
    failure responses and channel errors are passed on); if there is none, it passes, with the
    messages that closing gave as warnings. *)
Theorem C59_dialogue :
  forall (X : Type) (ch : channel X) isdir x p size_text komi_text,
  (forall d, cp_cwd p = Some d -> isdir d = true) ->
  exists c rs, until ch wrong (new_controller x (cp_code p)) (checking (cp_aliases p) (cp_startup p) size_text komi_text) c rs /\
    exists r : cres unit, verdict rs r /\
      check_player ch isdir (inl x) p size_text komi_text =
        (match r with
         | CRet _ => Passed (retrieve_error_messages c)
         | CBad m _ | CChan _ m => CheckFailed m
         | CExn e => CheckError e
         end, Some c).
Proof.
  intros X ch isdir x p st kt D. unfold check_player.
  pose proof (check_engine_spec ch (cp_aliases p) (cp_startup p) st kt (new_controller x (cp_code p))) as (rs & U & V).
  destruct (check_engine ch (cp_aliases p) (cp_startup p) st kt (new_controller x (cp_code p))) as [c r] eqn:E.
  exists c, rs. split; [exact U|]. exists r. split; [exact V|].
  destruct (cp_cwd p) as [d|]; [rewrite (D d eq_refl); cbn [negb]|]; rewrite ?E; destruct r; reflexivity.
Qed.
Print Assumptions C59_dialogue.

(** What the engine sees.  If the check passes it has been sent every command exactly once, in
    order, ending with 'quit', and its channel has been closed, once.  If the check fails it has
    been sent only the first of them; and its channel has not been closed. *)
Theorem C59_commands :
  forall (X : Type) (ch : channel X) isdir x p size_text komi_text out oc,
  (forall d, cp_cwd p = Some d -> isdir d = true) ->
  check_player (recorded ch) isdir (inl (x, [])) p size_text komi_text = (out, oc) ->
  exists c, oc = Some c /\
    let commands := map (aliased (cp_aliases p)) (check_commands (cp_startup p) size_text komi_text) in
    (existsb unexpected (trace c) = false ->
       prefix_of (sent (trace c)) commands /\
       match out with
       | Passed _ => sent (trace c) = commands /\ c_closed c = true /\
                     exists t e, trace c = t ++ [EvClose e] /\ existsb is_close t = false
       | _ => c_closed c = false /\ existsb is_close (trace c) = false /\ retrieve_error_messages c = []
       end).
Proof.
  intros X ch isdir x p st kt out oc D H.
  destruct (C59_dialogue _ (recorded ch) isdir (x, []) p st kt D) as (c & rs & U & r & V & E). rewrite E in H. injection H as <- <-.
  exists c. split; [reflexivity|]. intros commands Un. destruct (checking_sent ch _ _ _ _ _ _ _ _ U Un) as (Pr & Ca).
  split; [exact Pr|]. destruct Ca as [(F & S & Cl & T)|(N & Cl & Nc & Er)].
  - destruct V as [rs a F'|rs m g F'|rs k m F'|rs e F']; [split; [exact S|]; split; [exact Cl|exact T]|..];
      apply not_all in F; try contradiction; exact I.
  - destruct V as [rs a F'|rs m g F'|rs k m F'|rs e F']; [contradiction|..]; auto.
Qed.
Print Assumptions C59_commands.

(** ** Examples *)

(** A byte that is not part of a character is replaced; but what Python takes for one bad
    character may differ. *)
Definition demo_bad : bytes := str "na" ++ ["195"%char; "169"%char] ++ ["240"%char; "144"%char] ++ str "e".
Example C58_demo_sanitise :
  ~ is_utf8 demo_bad /\
  sanitise_utf8 (fun _ => 0%nat) demo_bad = str "na" ++ ["195"%char; "169"%char] ++ str "??e" /\
  sanitise_utf8 (fun _ => 1%nat) demo_bad = str "na" ++ ["195"%char; "169"%char] ++ str "?e".
Proof.
  split; [|split; vm_compute; reflexivity]. intros (u & U & _). apply SgfValueProofs.utf8_decode_of in U. vm_compute in U. discriminate.
Qed.

Definition ident (s : bytes) : bytes := s.
Example C58_demo_versions :
  fix_version (Some (str "GNU Go")) (str "gnu go 3.8") = Ok (str "3.8") /\
  fix_version (Some (str "MoGo")) (str "MoGo release 1. Please read http://www.lri.fr/~gelly/MoGo.htm for more information. That is NOT an official developpement MoGo version")
    = Ok (str "release 1") /\
  fix_version (Some (str "Pachi")) (str "8.99 (Hakugen-devel): I'm playing. When I'm losing, I'll resign, and if I have won, I'll play on for a while.")
    = Ok (str "8.99 (Hakugen-devel)") /\
  fix_version None (str "one two three four five six seven eight nine ten eleven twelve thirteen") = Ok (str "one") /\
  fix_version None (repeat " "%char 65) = Err IndexError.
Proof. vm_compute. repeat split. Qed.

(** The non-raw attributes can be empty, contrary to the documentation: an engine whose version is
    its name. *)
Example C58_demo_empty_version :
  match new_engine ident (Some (str "Foo")) (Some (str "foo")) None with
  | Ok e => ed_clean e = Some [] /\ short_description e = Some (str "Foo:")
  | Err _ => False
  end.
Proof. vm_compute. split; reflexivity. Qed.

(** An engine that gives its name, has no version, and describes itself; the fourth command. *)
Definition demo_engine : channel nat :=
  mkChannel _ (fun n cmd args => (S n, None))
              (fun n => (n, match n with
                            | 1%nat => inl (false, str "Foo")
                            | 2%nat => inl (true, str "unknown command")
                            | 3%nat => inl (false, str "true")
                            | 4%nat => inl (false, str "Foo the Great")
                            | _ => inr (XChan KTransport (str "gone"))
                            end))
              (fun n => (n, None)).
Example C58_demo_from_controller :
  let (c, r) := from_controller ident demo_engine (new_controller 0%nat (str "player one")) in
  r = CRet (mkEngine (Some (str "Foo")) None (Some (str "Foo")) None None (Some (str "Foo the Great"))) /\
  match r with CRet e => short_description e = Some (str "Foo") /\ long_description e = Some (str "Foo the Great") | _ => False end /\
  snd (from_controller ident demo_engine (new_controller 4%nat (str "player one"))) =
    CChan KTransport (str "transport error reading response to first command (name) from player one:" ++ [char_lf] ++ str "gone").
Proof. vm_compute. repeat split. Qed.

Definition demo_player : checked_player :=
  mkChecked (str "foo") (Some (str "/tmp")) [(str "komi", str "kgs-komi")] [(str "set", [str "level"; str "3"])].
(** Refuses the komi, if [n] is 0; otherwise accepts everything. *)
Definition demo_fussy : channel nat :=
  mkChannel _ (fun n cmd args => (S n, None))
              (fun n => (n, match n with
                            | 1%nat | 11%nat => inl (false, str "2")
                            | 5%nat | 16%nat => inl (true, str "no")
                            | _ => inl (false, [])
                            end))
              (fun n => (n, None)).
Example C59_demo :
  fst (check_player (recorded demo_fussy) (fun _ => true) (inl (0%nat, [])) demo_player (str "19") (str "7.5")) =
    CheckFailed (str "failure response from 'kgs-komi 7.5' to foo:" ++ [char_lf] ++ str "no") /\
  fst (check_player (recorded demo_fussy) (fun _ => true) (inl (10%nat, [])) demo_player (str "19") (str "7.5")) =
    Passed [str "failure response from 'quit' to foo:" ++ [char_lf] ++ str "no"] /\
  match snd (check_player (recorded demo_fussy) (fun _ => true) (inl (10%nat, [])) demo_player (str "19") (str "7.5")) with
  | Some c => sent (trace c) = [(str "protocol_version", []); (str "set", [str "level"; str "3"]); (str "boardsize", [str "19"]);
                                (str "clear_board", []); (str "kgs-komi", [str "7.5"]); (str "quit", [])] /\
              existsb unexpected (trace c) = false
  | None => False
  end /\
  check_player (recorded demo_fussy) (fun _ => false) (inl (10%nat, [])) demo_player (str "19") (str "7.5") =
    (CheckFailed (str "bad working directory: /tmp"), None).
Proof. vm_compute. repeat split. Qed.
