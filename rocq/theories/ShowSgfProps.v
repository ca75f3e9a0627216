(** C75: showing the position from an SGF file (gomill_examples/show_sgf.py). *)
From Verif Require Import Base Bytes PyStr Dict BoardModel BoardSpec BoardProofs CommonModel CommonProofs DiagramProofs
  SgfGrammarModel SgfPropsModel SgfTreeModel SgfTreeSpec SgfMovesModel SgfMovesSpec SgfMovesProofs SgfCharsetModel SgfCharsetSpec
  SgfTreeProofs GtpStateSpec GtpStateProofs GtpArgSpec GtpArgProofs ShowSgfModel ShowSgfSpec ShowSgfProofs.

(** Something is printed exactly if the file holds a game on a board of 2 to 25 rows with a
    legal setup, whose moves before the given one (all of them if none is given) can be
    played; what's printed is the diagram of the position after these moves, by the rules of
    Go.  (Later moves may be illegal.) *)
Theorem C75_shown : forall reg pick src move_number text,
  show_sgf_file reg pick src move_number = Shown text <->
  exists size setup ms p, game_in reg src size setup ms /\ 2 <= size <= 25 /\ replays size setup (wanted move_number ms) p /\
    text = diagram size p ++ [char_lf; char_lf].
Proof.
  intros reg pick src n text. pose proof (show_proof reg pick src n) as H. split; [intros E; rewrite E in H; exact H|].
  intros (size & setup & ms & p & G & S & R & ET).
  assert (FUN : forall size' setup' ms', game_in reg src size' setup' ms' -> size' = size /\ setup' = setup /\ ms' = ms).
  { intros size' setup' ms' G'. destruct G as (w & g & t & ab & aw & ae & E1 & E2 & E3 & E4 & E5 & E6). destruct G' as (w' & g' & t' & ab' & aw' & ae' & F1 & F2 & F3 & F4 & F5 & F6).
    assert (w' = w) by congruence. subst w'. assert (g' = g) by congruence. subst g'. assert (t' = t) by (eapply tree_of_fun; eauto). subst t'.
    destruct (readable_fun _ _ _ _ _ _ _ _ _ _ _ E5 F5) as (<- & <- & <- & <-). split; [congruence|]. split; [congruence|reflexivity]. }
  assert (LO : exists w, from_string reg empty_world src None = (w, Ok tt)) by (destruct G as (w & ? & ? & ? & ? & ? & E & _); eauto). destruct LO as (w & LO).
  destruct (show_sgf_file reg pick src n) as [text'|[| | |e]].
  - destruct H as (size' & setup' & ms' & p' & G' & _ & R' & ->). destruct (FUN _ _ _ G') as (-> & -> & ->). f_equal. rewrite ET. f_equal. apply diagram_same. eapply replays_fun; eauto.
  - congruence.
  - destruct H as [_ H]. destruct (H size setup ms (proj1 S) G).
  - destruct H as (size' & setup' & ms' & l1 & c & q & l2 & p' & G' & E & R1 & O & N). destruct (FUN _ _ _ G') as (-> & -> & ->). rewrite E in R.
    apply replays_app_inv in R. destruct R as (p1 & R2 & R3). inversion R3 as [| |? ? ? ? ? ? ? V]; subst. exfalso. apply N. rewrite (replays_fun _ _ _ _ R1 _ R2 q O). exact V.
  - destruct H as [[_ H]|(_ & setup' & ms' & p' & G' & _)]; [congruence|]. destruct (FUN _ _ _ G') as (E & _). lia.
Qed.
Print Assumptions C75_shown.

(** Otherwise nothing is printed on standard output, for one of these reasons: the text isn't
    a game (with a proper size and a known encoding); the board is too small, or the setup is
    illegal or there is something that can't be read on the main line; a move before the given
    one is on an occupied point; the encoding's name has a NUL character, or the board is too
    big for a diagram. *)
Theorem C75_not_shown : forall reg pick src move_number r, show_sgf_file reg pick src move_number = NotShown r ->
  match r with
  | BadFile => from_string reg empty_world src None = (empty_world, Err ValueError)
  | BadGame => (exists w, from_string reg empty_world src None = (w, Ok tt)) /\ forall size setup ms, 2 <= size -> ~ game_in reg src size setup ms
  | IllegalMove => exists size setup ms before c q after p, game_in reg src size setup ms /\
      wanted move_number ms = before ++ (c, Some q) :: after /\ replays size setup before p /\ on_board size q /\ p q <> None
  | OtherReason e =>
      (e = TypeError /\ exists t m sq n rest, parse_sgf_game src = Ok t /\ c_sequence t = m :: sq /\ lookup (str "CA") m = Some (n :: rest) /\ has_nul n) \/
      (e = IndexError /\ exists setup ms p, game_in reg src 26 setup ms /\ replays 26 setup (wanted move_number ms) p)
  end.
Proof.
  intros reg pick src n r E. pose proof (show_proof reg pick src n) as H. rewrite E in H. destruct r as [| | |e]; try exact H.
  destruct H as [[-> H]|H]; [|right; exact H]. left. split; [reflexivity|].
  destruct (from_cases reg src) as [(? & w & X & _)|[X|[_ X]]]; [congruence|congruence|exact X].
Qed.
Print Assumptions C75_not_shown.

(** Different positions have different diagrams. *)
Theorem C75_diagram_is_unambiguous : forall size p q, 2 <= size <= 25 -> diagram size p = diagram size q -> same_on size p q.
Proof.
  intros size p q S E.
  assert (L : forall x, split_on char_lf (diagram size x) = map (diagram_row size x) (rev (range size)) ++ [footer size]).
  { intros x. unfold diagram. rewrite <- footer_proof by exact S. apply split_on_join.
    - destruct (map (diagram_row size x) (rev (range size))); discriminate.
    - apply Forall_app. split; [|constructor; [apply footer_no_lf; auto|constructor]]. apply Forall_map. rewrite Forall_forall. intros row I.
      apply in_rev, In_range in I. rewrite <- row_proof by lia. apply row_text_no_lf. lia. }
  pose proof (L p) as L1. rewrite E, L in L1. apply app_inj_tail in L1. destruct L1 as [L1 _].
  intros [row col] [O1 O2]. cbn [fst snd] in O1, O2.
  assert (diagram_row size q row = diagram_row size p row) as ER.
  { assert (forall l, map (diagram_row size q) l = map (diagram_row size p) l -> In row l -> diagram_row size q row = diagram_row size p row) as MI.
    { induction l as [|y l IH]; intros EM I; [destruct I|]. cbn [map] in EM. injection EM as E1 E2. destruct I as [->|I]; [exact E1|auto]. }
    apply (MI _ L1). apply in_rev. rewrite rev_involutive. apply In_range. lia. }
  unfold diagram_row in ER. apply app_inv_head in ER. apply app_inv_head in ER.
  assert (forall l, join (str "  ") (map (fun col => str (point_sign (q (row, col)))) l) = join (str "  ") (map (fun col => str (point_sign (p (row, col)))) l) ->
          forall c, In c l -> p (row, c) = q (row, c)) as JI.
  { induction l as [|y l IH]; intros EJ c I; [destruct I|].
    assert (forall x : position, exists a, str (point_sign (x (row, y))) = [a]) as SG by (intros x; destruct (x (row, y)) as [[]|]; eexists; reflexivity).
    assert (forall u v, str (point_sign (q (row, y))) ++ u = str (point_sign (p (row, y))) ++ v -> p (row, y) = q (row, y) /\ u = v) as HD.
    { intros u v EQ. destruct (p (row, y)) as [[]|], (q (row, y)) as [[]|]; cbn in EQ; try discriminate; injection EQ as EQ; auto. }
    destruct l as [|z l].
    - cbn [map join] in EJ. destruct I as [->|[]]. apply (HD [] []). rewrite !app_nil_r. exact EJ.
    - cbn [map] in EJ. cbn [join] in EJ. apply HD in EJ. destruct EJ as [HP EJ]. destruct I as [->|I]; [exact HP|]. apply app_inv_head in EJ. apply IH; [exact EJ|exact I]. }
  apply (JI _ ER). apply In_range. lia.
Qed.
Print Assumptions C75_diagram_is_unambiguous.

(** ** Examples *)
Definition demo_reg : registry := fun n => if bytes_eqb n (str "UTF-8") then Some UTF_8 else if bytes_eqb n (str "ISO-8859-1") then Some ISO_8859_1 else None.
Definition demo_game : bytes := str "(;SZ[4]AB[ab]AW[bb];B[cb];W[];B[bc];W[dd];B[ba];B[ba])".
(** The white stone in the middle is taken by the fifth move; the sixth is illegal. *)
Example C75_demo :
  show_sgf_file demo_reg (fun _ => O) demo_game (Some 6)
    = Shown (str "4  .  #  .  ." ++ [char_lf] ++ str "3  #  .  #  ." ++ [char_lf] ++ str "2  .  #  .  ." ++ [char_lf] ++ str "1  .  .  .  o" ++ [char_lf] ++ str "   A  B  C  D" ++ [char_lf; char_lf]) /\
  show_sgf_file demo_reg (fun _ => O) demo_game (Some 7) = NotShown IllegalMove /\ show_sgf_file demo_reg (fun _ => O) demo_game None = NotShown IllegalMove /\
  show_sgf_file demo_reg (fun _ => O) demo_game (Some (-5))
    = Shown (str "4  .  .  .  ." ++ [char_lf] ++ str "3  #  o  .  ." ++ [char_lf] ++ str "2  .  .  .  ." ++ [char_lf] ++ str "1  .  .  .  ." ++ [char_lf] ++ str "   A  B  C  D" ++ [char_lf; char_lf]) /\
  show_sgf_file demo_reg (fun _ => O) (str "(;SZ[26])") None = NotShown (OtherReason IndexError) /\
  show_sgf_file demo_reg (fun _ => O) (str "(;SZ[1])") None = NotShown BadGame /\
  show_sgf_file demo_reg (fun _ => O) (str "(;SZ[9];AB[aa])") None = NotShown BadGame /\
  show_sgf_file demo_reg (fun _ => O) (str "(;SZ[27])") None = NotShown BadFile /\
  show_sgf_file demo_reg (fun _ => O) (str "(;CA[klingon])") None = NotShown BadFile.
Proof. vm_compute. repeat split. Qed.

(** The command line: the file, then optionally an integer; anything else is a usage error. *)
Theorem C75_command_line args path n :
  arguments args = Some (path, n) <->
  (args = [path] /\ n = None) \/ (exists a z, args = [path; a] /\ int_literal a z /\ n = Some z).
Proof.
  unfold arguments. destruct args as [|a [|b [|c l]]].
  - split; [discriminate|]. intros [[H _]|(x & z & H & _)]; discriminate.
  - split.
    + intros H. injection H as <- <-. left; split; reflexivity.
    + intros [[H ->]|(x & z & H & _)]; [injection H as ->; reflexivity|discriminate].
  - split.
    + destruct (py_int b) as [z|e] eqn:E; [|discriminate]. intros H. injection H as <- <-. right.
      exists b, z. split; [reflexivity|]. split; [apply py_int_literal; exact E|reflexivity].
    + intros [[H _]|(x & z & H & L & ->)]; [discriminate|]. injection H as -> ->.
      apply py_int_literal in L. rewrite L. reflexivity.
  - split; [discriminate|]. intros [[H _]|(x & z & H & _)]; discriminate.
Qed.
Print Assumptions C75_command_line.
Example C75_command_line_demo :
  arguments [str "g.sgf"; str " -12"] = Some (str "g.sgf", Some (-12)) /\ arguments [str "g.sgf"; str "x"] = None /\
  arguments [] = None /\ arguments [str "7"] = Some (str "7", None) /\ arguments [str "a"; str "1"; str "2"] = None.
Proof. vm_compute. repeat split. Qed.
