(** Proofs about reading a game record for loadsgf: what [read_file] returns. *)
From Verif Require Import Base Bytes PyStr Dict BoardModel BoardSpec BoardProofs BoardPlayProofs BoardMainProofs
  CommonModel CommonSpec CommonProofs SgfGrammarModel SgfTreeConvModel SgfTreeConvProofs SgfPropsModel SgfPropsProofs SgfTreeModel SgfTreeSpec SgfTreeProofs
  SgfNodeProofs SgfGameProofs SgfTreeMainProofs SgfSaveProofs SgfMovesModel SgfMovesSpec SgfMovesProofs SgfTypeErrorProofs.
From Verif Require Import GtpModel GtpStateModel GtpStateSpec GtpStateProofs.

Lemma load_below_games t : forall p w, w_games (load_below t p w) = w_games w.
Proof.
  induction t as [m ks IH] using ntree_ind'. intros p w. cbn [load_below].
  assert (forall c w, w_games (fold_left (fun w' k => load_below k c w') ks w) = w_games w) as H.
  { intros c. induction IH as [|k ks Hk _ IHks]; intros w0; cbn [fold_left]; [reflexivity|].
    rewrite IHks. apply Hk. }
  rewrite H. unfold new_node, set_node. destruct (node_at _ p); reflexivity.
Qed.

(** Loading into an empty world: one game, with the default property types. *)
Lemma load_one text e w u : load_string empty_world text e false = (w, Ok u) ->
  exists g size, u = tt /\ game_at w 0 = Some g /\ g_pres g = new_presenter size e /\ 1 <= size <= 26 /\ g_size g = size.
Proof.
  unfold load_string. destruct (parse_sgf_game text) as [t|]; [|discriminate]. unfold load_game.
  destruct (c_sequence t) as [|m sq]; [discriminate|].
  destruct (match dget (str "SZ") m with None => _ | Some _ => _ end) as [size|]; [|discriminate].
  destruct ((1 <=? size) && (size <=? 26)) eqn:Rg; cbn [negb]; [|discriminate].
  destruct (ntree_of t) as [props ks]. intros E. injection E as <- <-.
  assert (forall c w, w_games (fold_left (fun w' k => load_below k c w') ks w) = w_games w) as H.
  { intros c. induction ks as [|k ks IH]; intros w0; cbn [fold_left]; [reflexivity|]. rewrite IH. apply load_below_games. }
  exists (mkGame O (new_presenter size e)), size. split; [reflexivity|]. split.
  - unfold game_at. rewrite H. reflexivity.
  - split; [reflexivity|]. split; [lia|reflexivity].
Qed.

Lemma load_error text e w ex : load_string empty_world text e false = (w, Err ex) -> ex = ValueError.
Proof.
  intros H. pose proof (C47_load_proof empty_world text e rw_empty) as P. destruct (parse_sgf_game text).
  - destruct P as (m & sq & _ & P). cbv zeta in P.
    destruct (match dget (str "SZ") m with None => _ | Some _ => _ end) as [n|]; [|congruence].
    destruct (_ && _); [|congruence]. destruct P as (w' & g & nt & P & _). congruence.
  - congruence.
Qed.

Lemma load_reachable text e w u : load_string empty_world text e false = (w, Ok u) -> reachable_world w.
Proof.
  intros H. replace w with (fst (exec empty_world (LoadString text e false))) by (cbn [exec]; rewrite H; reflexivity).
  apply rw_step; [apply rw_empty|]. split; constructor.
Qed.

(** The root node of the game. *)
Lemma root_pres w g : reachable_world w -> game_at w 0 = Some g ->
  exists x, node_at w (g_root g) = Some x /\ pres_of w x = Some (g_pres g).
Proof.
  intros R G. destruct (C19_tree_proof w 0 g R G) as (t & T & _ & _ & _ & Ow & _).
  inversion T as [n x ts E F]; subst.
  destruct (Ow (g_root g)) as (x' & E' & O'). { subst. cbn [labels]. left. reflexivity. }
  exists x. split; [exact E|]. unfold pres_of. replace x with x' by congruence. rewrite O', G. reflexivity.
Qed.

Lemma komi_spec w g size e : reachable_world w -> game_at w 0 = Some g -> g_pres g = new_presenter size e ->
  match get_komi w g with
  | Ok (m, k) => get_prop w (g_root g) (str "KM") = Ok (VReal m k) \/
                 has_property w (g_root g) (str "KM") = false /\ (m, k) = (0, O)
  | Err ex => ex = ValueError
  end.
Proof.
  intros R G P. destruct (root_pres w g R G) as (x & E & Px). unfold get_komi, get_prop, has_property, get_raw_list, dmem.
  rewrite E, Px, P. destruct (dget (str "KM") (t_props x)) as [vs|]; cbn [bind]; [|right; auto].
  unfold interpret. replace (effective_type (new_presenter size e) (str "KM")) with (@Ok ptype PT_real) by reflexivity.
  cbn [bind]. unfold interpret_as_type. destruct vs as [|v [|v2 r]]; cbn [uses_list]; try reflexivity.
  cbn [interpret_single]. destruct (interpret_real v) as [[m k]|ex] eqn:PF; cbn [bind]; [left; reflexivity|].
  apply interpret_real_err in PF. subst ex. reflexivity.
Qed.

Lemma handicap_spec w g size e : reachable_world w -> game_at w 0 = Some g -> g_pres g = new_presenter size e ->
  let n := match get_prop w (g_root g) (str "HA") with
           | Ok (VInt n) => if (n =? 0) || (n =? 1) then None else Some n
           | _ => None
           end in
  get_handicap w g = Ok n \/ get_handicap w g = Err ValueError /\ n = None.
Proof.
  intros R G P. destruct (root_pres w g R G) as (x & E & Px). cbv zeta. unfold get_handicap, get_prop, get_raw_list.
  rewrite E, Px, P. destruct (dget (str "HA") (t_props x)) as [vs|]; cbn [bind]; [|left; auto].
  unfold interpret. replace (effective_type (new_presenter size e) (str "HA")) with (@Ok ptype PT_number) by reflexivity.
  cbn [bind]. unfold interpret_as_type. destruct vs as [|v [|v2 r]]; cbn [uses_list]; auto.
  cbn [interpret_single]. unfold interpret_number. destruct (py_int v) as [n|ex] eqn:PI; cbn [bind].
  - destruct (n =? 0); [left; reflexivity|]. destruct (n =? 1); [right|left]; auto.
  - apply py_int_err in PI. subst ex. auto.
Qed.

Lemma get_move_on_board w n c p : get_move w n = Ok (Some (c, Some p)) -> on_board (size_of w n) p.
Proof.
  unfold get_move. destruct (get_raw_move w n) as [[[c' raw]|]|]; cbn [bind]; try discriminate.
  pose proof (interpret_go_point_spec raw (size_of w n)) as S.
  destruct (interpret_go_point raw (size_of w n)) as [[q|]|]; cbn [bind]; try discriminate.
  intros E. injection E as <- <-. destruct S as (a & b & _ & A & B & _). split; assumption.
Qed.

Lemma moves_on_board w size ns ms : Forall (fun n => size_of w n = size) ns -> moves_of w ns ms ->
  Forall (fun cm => forall p, snd cm = Some p -> on_board size p) ms.
Proof.
  intros F M. induction M as [|n ns ms E M IH|n ns [c m] ms E M IH]; [constructor| |]; inversion F; subst.
  - auto.
  - constructor; [|auto]. cbn [snd]. intros p ->. eapply get_move_on_board; eauto.
Qed.

Lemma readable_on_board w g t ab aw ae ms : reachable_world w -> game_at w 0 = Some g -> tree_of w (g_root g) t ->
  readable w g t ab aw ae ms -> Forall (fun cm => forall p, snd cm = Some p -> on_board (g_size g) p) ms.
Proof.
  intros R G T (_ & _ & _ & _ & M). eapply moves_on_board; [|exact M].
  pose proof (nodes_sizes w 0 g t R G T) as F.
  assert (Forall (fun n => size_of w n = g_size g) (leftmost t)) as F2 by (eapply Forall_impl; [|exact F]; cbn; tauto).
  unfold move_nodes. destruct (ab ++ aw); [exact F2|]. destruct (leftmost t); [constructor|]. inversion F2; auto.
Qed.

(** What loadsgf reads is what the file says. *)
Lemma read_file_spec pick text e size c : read_file pick text e = GOk (size, c) -> 2 <= size ->
  forall komi handicap b ms, c = GOk (komi, handicap, b, ms) ->
  reachable size b /\ Forall (fun cm => forall p, snd cm = Some p -> on_board size p) ms /\
  file_says text e size komi handicap (view b) ms.
Proof.
  unfold read_file. destruct (load_string empty_world text e false) as [w [u|ex]] eqn:L.
  2:{ apply load_error in L. subst. discriminate. }
  pose proof (load_reachable _ _ _ _ L) as R. destruct (load_one _ _ _ _ L) as (g & sz & -> & G & P & Sz & GS).
  rewrite G. intros E. injection E as E1 E2. intros L2 komi handicap b ms ->.
  pose proof (komi_spec w g sz e R G P) as K. destruct (get_komi w g) as [[m k]|ex]; [|subst ex; discriminate].
  cbn [gbind] in E2.
  assert (exists hc, (get_handicap w g = Ok hc \/ get_handicap w g = Err ValueError /\ hc = None) /\
            hc = match get_prop w (g_root g) (str "HA") with
                 | Ok (VInt n) => if (n =? 0) || (n =? 1) then None else Some n
                 | _ => None
                 end) as (hc & Hh & Hc).
  { pose proof (handicap_spec w g sz e R G P) as H. cbv zeta in H. eexists. split; [exact H|reflexivity]. }
  assert (gbind (match get_handicap w g with Err ValueError => GOk None | Err ex => uncaught ex | Ok h => GOk h end)
            (fun handicap0 =>
         match get_setup_and_moves pick w g None with
         | (Some b, Ok plays) => GOk ((m, k), handicap0, b, plays)
         | (None, Ok _) => uncaught AttributeError
         | (_, Err ValueError) => GError (str "bad setup or move")
         | (_, Err ex) => uncaught ex
         end) = GOk (komi, handicap, b, ms)) as E3 by exact E2. clear E2.
  replace (match get_handicap w g with Err ValueError => GOk None | Err ex => uncaught ex | Ok h => GOk h end) with (GOk hc) in E3
    by (destruct Hh as [->|[-> ->]]; reflexivity).
  cbn [gbind] in E3.
  destruct (C19_tree_proof w 0 g R G) as (t & T & _).
  destruct (C21_read_proof pick w 0 g t None R G T) as (b' & r & ES & Rb & M); try discriminate.
  - cbn [usable]. rewrite E1. exact L2.
  - intros kk Hk. destruct (root_pres w g R G) as (x & Ex & Px). exists x, (g_pres g). split; [exact Ex|]. split; [exact Px|].
    rewrite P. destruct Hk as [<-|[<-|[<-|[]]]]; reflexivity.
  - rewrite ES in E3. destruct r as [ms'|ex]; [|destruct M as [-> _]; discriminate].
    injection E3 as <- <- <- <-. destruct M as (ab & aw & ae & Rd & S). rewrite <- E1. split; [exact Rb|]. split.
    + eapply readable_on_board; eauto.
    + exists w, g, t. do 3 (split; [assumption|]). split; [reflexivity|]. split; [exact K|].
      split; [exact Hc|]. exists ab, aw, ae. auto.
Qed.
