(** C63: the gomill-savesgf command, and loading what it has saved. *)
From Verif Require Import Base Bytes PyStr Dict BoardModel BoardSpec SgfGrammarModel SgfGrammarSpec CommonModel GameplayModel
  SgfPropsModel SgfPropsSpec SgfValueSpec SgfTreeModel SgfTreeSpec SgfMovesModel SgfMovesSpec GameSgfModel GameSgfSpec
  GtpModel GtpStateModel GtpStateSpec SaveModel SaveSpec SaveFinalProofs SaveStateProofs GtpStateProps.

(** The properties that can't be given as options here: the board size, the encoding, and those
    that say what the position is and who plays. *)
Definition own_properties : list bytes := [str "SZ"; str "CA"; str "AB"; str "AW"; str "AE"; str "PL"].

(** In a game in which there has been a move the command succeeds, if the file can be written, and
    the file, loaded into any program, shows the position that the moves start from, the moves with
    their comments, the komi, the handicap and the options, and nothing else.  The state doesn't
    change.  If the file can't be written that is reported. *)
Theorem C63_saved :
  forall version today save st path args opts h hs,
  served st -> savable st -> is_utf8 version -> is_utf8 today ->
  Forall2 option_arg args opts -> (forall k, In k own_properties -> ~ In k (names opts)) ->
  st_history st = h :: hs ->
  exists text,
    (save path = None -> handle_savesgf version today save st (path :: args) = ((st, GOk None), Some (path, text))) /\
    (forall m, save path = Some m ->
       handle_savesgf version today save st (path :: args) = ((st, GError (str "error writing file: " ++ m)), None)) /\
    forall w0, reachable_world w0 -> exists w1 g,
      load_string w0 text UTF_8 false = (w1, Ok tt) /\
      shows_state version today st opts (h_colour h) w1 (List.length (w_games w0)) g.
Proof.
  intros version today save st path args opts h hs SV SB UV UT OA OF EH.
  destruct (saved_proof version today save st path args opts h hs SV SB UV UT OA OF EH) as (text & A & B & L).
  exists text. split; [exact A|]. split; [exact B|]. intros w0 R. destruct (L w0 R) as (w1 & g & E & S & _). eauto.
Qed.
Print Assumptions C63_saved.

(** So the file says what the state is, unless the options say otherwise. *)
Theorem C63_file_says :
  forall version today save st path args opts h hs text,
  served st -> savable st -> is_utf8 version -> is_utf8 today ->
  Forall2 option_arg args opts ->
  (forall k, In k (own_properties ++ [str "B"; str "W"; str "KM"; str "HA"]) -> ~ In k (names opts)) ->
  st_history st = h :: hs ->
  handle_savesgf version today save st (path :: args) = ((st, GOk None), Some (path, text)) ->
  file_says text UTF_8 (st_size st) (komi_read (st_komi st)) (st_handicap st) (view (st_base st)) (moves_made st).
Proof. exact saved_says. Qed.
Print Assumptions C63_file_says.

(** Loading the file into an engine (perhaps another one, and whatever it has been doing) that
    accepts the board size brings back the position, the moves, the komi and the handicap. *)
Theorem C63_load_back :
  forall version today save st path args opts h hs text env st2,
  served st -> savable st -> is_utf8 version -> is_utf8 today ->
  Forall2 option_arg args opts ->
  (forall k, In k (own_properties ++ [str "B"; str "W"; str "KM"; str "HA"]) -> ~ In k (names opts)) ->
  st_history st = h :: hs ->
  handle_savesgf version today save st (path :: args) = ((st, GOk None), Some (path, text)) ->
  served st2 -> In (st_size st) (st_sizes st2) -> env_files env path = Some (text, UTF_8) ->
  exists st2', handle env Loadsgf st2 [path] = (st2', GOk None) /\ served st2' /\
    st_size st2' = st_size st /\ moves_made st2' = moves_made st /\
    st_handicap st2' = st_handicap st /\ st_komi st2' = komi_read (st_komi st) /\
    same_on (st_size st) (view (st_base st2')) (view (st_base st)) /\
    same_on (st_size st) (view (st_board st2')) (view (st_board st)).
Proof.
  intros version today save st path args opts h hs text env st2 SV SB UV UT OA OF EH E SV2 IN EF.
  exact (load_back_proof env st st2 path text SV SV2 IN
    (saved_says version today save st path args opts h hs text SV SB UV UT OA OF EH E) EF).
Qed.
Print Assumptions C63_load_back.

(** An argument that isn't a name (letters), "=" and a value is refused, and nothing is written. *)
Theorem C63_bad_arguments :
  forall version today save st,
  handle_savesgf version today save st [] = ((st, GError (str "invalid arguments")), None) /\
  forall path args opts bad more,
  served st -> savable st -> is_utf8 version -> is_utf8 today ->
  Forall2 option_arg args opts -> ~ In (str "SZ") (names opts) ->
  (forall name v, bad = name ++ str "=" ++ v -> name = [] \/ ~ Forall (fun c => is_letter c = true) name) ->
  handle_savesgf version today save st (path :: args ++ bad :: more) = ((st, GError (str "invalid arguments")), None).
Proof. intros. split; [reflexivity|]. intros. eapply bad_argument_proof; eauto. Qed.
Print Assumptions C63_bad_arguments.

(** The komi of an engine is never beyond 625, and its handicap is never 0 or 1 (whatever the files
    it has loaded say). *)
Theorem C37_komi_and_handicap :
  forall st, served_any st ->
  (forall n, st_handicap st = Some n -> n <> 0 /\ n <> 1) /\
  (let (m, d) := st_komi st in - 625 * 10 ^ Z.of_nat d <= m <= 625 * 10 ^ Z.of_nat d).
Proof. exact any_sane. Qed.
Print Assumptions C37_komi_and_handicap.

(** Finding: before the first move the command always fails, with an uncaught exception
    (IndexError, from indicate_first_player). *)
Theorem C63_finding_no_moves :
  forall version today save st path args opts,
  served st -> savable st -> is_utf8 version -> is_utf8 today ->
  Forall2 option_arg args opts -> (forall k, In k own_properties -> ~ In k (names opts)) ->
  st_history st = [] ->
  handle_savesgf version today save st (path :: args) = ((st, uncaught IndexError), None).
Proof. exact no_moves_proof. Qed.
Print Assumptions C63_finding_no_moves.

(** * Examples *)

Local Open Scope string_scope.
Local Open Scope list_scope.
Local Open Scope Z_scope.

Definition ver : bytes := str "0.8.4".
Definition day : bytes := str "2012-09-02".
Definition writes : bytes -> option bytes := fun _ => None.
Definition demo_game : gstate :=
  fst (run st0 (ko_game ++ [(ev, Play, w ["w"; "pass"])])).
Definition quote (s : bytes) : bytes := flat_map (fun c => if ceqb c "'"%char then [chr 34] else if ceqb c "|"%char then [char_lf] else [c]) s.

Lemma ev_served l : (forall x, In x l -> snd (fst x) <> Loadsgf) -> forall st, served st -> served (fst (run st l)).
Proof.
  induction l as [|[[e c] a] l IH]; intros N st S; cbn [run]; [exact S|].
  destruct (handle e c st a) as [st1 r1] eqn:E.
  assert (served st1) as S1. { eapply sv_command; [exact S|exact E|]. intros ->. exfalso. apply (N (e, Loadsgf, a)); [left; reflexivity|reflexivity]. }
  specialize (IH (fun x I => N x (or_intror I)) st1 S1). destruct (run st1 l) as [st2 rs]. exact IH.
Qed.

Example C63_demo_state : served demo_game /\ savable demo_game /\ is_utf8 ver /\ is_utf8 day.
Proof.
  split.
  { apply ev_served; [|exact st0_served]. intros x I. simpl in I. decompose [or] I; subst; try discriminate. contradiction. }
  split.
  { split; [vm_compute; discriminate|split; [vm_compute; reflexivity|right; vm_compute; discriminate]|].
    intros h c I E. exfalso. vm_compute in I. decompose [or] I; subst; try discriminate. contradiction. }
  split; apply GameSgfProofs.ascii_utf8; reflexivity.
Qed.

Fixpoint no_pair (v : bytes) : bool :=
  match v with
  | [] => true
  | c :: r => negb (ceqb c "\"%char && match r with d :: _ => ceqb d "_"%char | [] => false end) && no_pair r
  end.
Lemma codable_check v : no_pair v = true -> codable v.
Proof.
  intros H a. revert v H. induction a as [|c a IH]; intros v H b E; subst v; cbn [app no_pair] in H; [discriminate H|].
  apply andb_prop in H as (_ & H). exact (IH _ H b eq_refl).
Qed.

Example C63_demo_options : Forall2 option_arg (w ["pb=a\_b\\c"; "Ev=final"]) [(str "PB", str "a b\c"); (str "EV", str "final")].
Proof.
  constructor; [|constructor; [|constructor]].
  - exists (str "pb"). split; [reflexivity|]. split; [cbn; lia|]. split; [repeat constructor|]. split; [reflexivity|].
    apply codable_check. reflexivity.
  - exists (str "Ev"). split; [reflexivity|]. split; [cbn; lia|]. split; [repeat constructor|]. split; [reflexivity|].
    apply codable_check. reflexivity.
Qed.

Definition saved_demo : bytes :=
  quote (str "(;FF[4]AP[gomill:0.8.4]CA[UTF-8]DT[2012-09-02]EV[final]GM[1]KM[7.5]PB[a b\\c]|SZ[9];B[bi];W[ei];B[ch];W[dh];W[ci];B[di];W[tt])|").

Example C63_demo_saved :
  handle_savesgf ver day writes demo_game (w ["g.sgf"; "pb=a\_b\\c"; "Ev=final"]) =
  ((demo_game, GOk None), Some (str "g.sgf", saved_demo)).
Proof. vm_compute. reflexivity. Qed.

(** Another engine loads it. *)
Definition on_disk : surroundings := mkEnv (fun _ => O) (env_gen ev) (fun p => if bytes_eqb p (str "g.sgf") then Some (saved_demo, UTF_8) else None).
Example C63_demo_load_back :
  let '(st, r) := handle on_disk Loadsgf st0 [str "g.sgf"] in
  r = GOk None /\ moves_made st = moves_made demo_game /\ st_komi st = (75, 1%nat) /\ grid (st_board st) = grid (st_board demo_game).
Proof. vm_compute. auto. Qed.

(** A handicap game in which Black plays first: the record says so. *)
Example C63_demo_handicap :
  let st := fst (run st0 [(ev, Boardsize, w ["9"]); (ev, Fixed_handicap, w ["2"]); (ev, Play, w ["b"; "A1"])]) in
  handle_savesgf ver day writes st (w ["g.sgf"]) =
  ((st, GOk None), Some (str "g.sgf",
    quote (str "(;FF[4]AB[cg][gc]AP[gomill:0.8.4]CA[UTF-8]DT[2012-09-02]GM[1]HA[2]KM[0]PL[B]|SZ[9];B[ai])|"))).
Proof. vm_compute. reflexivity. Qed.

Example C63_demo_refused :
  handle_savesgf ver day writes demo_game (w ["g.sgf"; "P1=x"]) = ((demo_game, GError (str "invalid arguments")), None) /\
  handle_savesgf ver day writes demo_game (w ["g.sgf"; "PB"]) = ((demo_game, GError (str "invalid arguments")), None) /\
  handle_savesgf ver day (fun _ => Some (str "disk full")) demo_game (w ["g.sgf"]) =
    ((demo_game, GError (str "error writing file: disk full")), None) /\
  handle_savesgf ver day writes st0 (w ["g.sgf"]) = ((st0, uncaught IndexError), None).
Proof. vm_compute. auto. Qed.

(** Finding: a backslash followed by an underscore can't be given: doubling the backslash, as the
    rules of the command ask, gives a backslash and a blank. *)
Example C63_finding_backslash_underscore :
  coded (str "a\_b") = str "a\\_b" /\ read_option (str "GC=a\\_b") = Some (str "GC", str "a\ b").
Proof. vm_compute. auto. Qed.

(** Finding: an option for the board size, or a name of more than 64 letters, isn't refused but
    leads to an uncaught exception. *)
Example C63_finding_odd_names :
  handle_savesgf ver day writes demo_game (w ["g.sgf"; "SZ=19"]) = ((demo_game, uncaught ValueError), None) /\
  handle_savesgf ver day writes demo_game
    [str "g.sgf"; repeat "A"%char 65 ++ str "=x"] = ((demo_game, uncaught ValueError), None).
Proof. vm_compute. auto. Qed.
