(** Proofs about the commands of a GTP engine with a state (C37, C38). *)
From Verif Require Import Base Bytes PyStr BoardModel BoardSpec BoardProofs BoardPlayProofs BoardMainProofs
  CommonModel CommonSpec CommonProofs SgfPropsModel SgfTreeModel SgfMovesModel GtpModel GtpStateModel GtpStateSpec
  GtpStateProofs.

(** ** The invariant *)

Definition kst (s : Z) (base : position) (l : list (colour * gmove)) (ko : option point) (pl : option colour) : Prop :=
  (ko = None \/ exists l1 c q passes k, l = l1 ++ (c, Some q) :: passes /\ Forall (fun cm => snd cm = None) passes /\
     pl = Some (opponent_of c) /\ ko = Some k /\ ko_after s base l1 c q k) /\
  (forall l1 c q, l = l1 ++ [(c, Some q)] -> pl = Some (opponent_of c) /\
     forall k, ko = Some k <-> ko_after s base l1 c q k).

Lemma passes_end (l l' ps : list (colour * gmove)) c q c' q' : Forall (fun cm => snd cm = None) ps ->
  l ++ (c, Some q) :: ps = l' ++ [(c', Some q')] -> ps = [] /\ l = l' /\ c = c' /\ q = q'.
Proof.
  intros F E. destruct ps as [|x ps] using rev_ind.
  - apply app_inj_tail in E. destruct E as [-> E]. injection E as -> ->. auto.
  - exfalso. clear IHps. rewrite app_comm_cons, app_assoc in E. apply app_inj_tail in E. destruct E as [_ E].
    apply Forall_app in F. destruct F as [_ F]. inversion F; subst. discriminate.
Qed.

Lemma ko_local_kst s base l ko pl : ko_local s base l ko pl -> kst s base l ko pl.
Proof.
  intros [(F & -> & ->)|(l1 & c & q & ps & -> & F & -> & K)]; split.
  - left. reflexivity.
  - intros l1 c q ->. apply Forall_app in F. destruct F as [_ F]. inversion F; subst. discriminate.
  - destruct ko as [k|]; [right|left; reflexivity]. exists l1, c, q, ps, k. repeat split; auto. apply K; reflexivity.
  - intros l1' c' q' E. apply passes_end in E; auto. destruct E as (-> & -> & -> & ->). auto.
Qed.

Definition inv (st : gstate) : Prop :=
  consistent st /\ Forall (fun n => 2 <= n) (st_sizes st) /\
  kst (st_size st) (view (st_base st)) (moves_made st) (st_ko st) (st_ko_player st).

(** What holds whatever has failed. *)
Definition weak_inv (st : gstate) : Prop :=
  In (st_size st) (st_sizes st) /\ Forall (fun n => 2 <= n) (st_sizes st).

Lemma inv_weak st : inv st -> weak_inv st.
Proof. intros ((A & _) & B & _). split; auto. Qed.

Lemma new_board_ex n : 2 <= n -> exists b, new_board n = Ok b.
Proof. intros H. unfold new_board. destruct (Z.ltb_spec n 2); [lia|]. eauto. Qed.

Lemma fresh_inv st n b : In n (st_sizes st) -> Forall (fun n => 2 <= n) (st_sizes st) -> new_board n = Ok b ->
  st_size st = n -> st_board st = b -> st_base st = b -> st_history st = [] -> st_ko st = None -> inv st.
Proof.
  intros I F N <- B1 B2 H K. rewrite Forall_forall in F. pose proof (F _ I) as L.
  assert (reachable (st_size st) b) as R by (apply reach_new; exact N).
  split; [|split].
  - split; [exact I|]. split; [exact L|]. rewrite B1, B2. split; [exact R|]. split; [exact R|].
    unfold moves_made. rewrite H. apply rp_done, same_on_refl.
  - apply Forall_forall. exact F.
  - unfold moves_made. rewrite H, K. split; [left; reflexivity|]. intros l1 c q E. destruct l1; discriminate.
Qed.

Lemma reset_ok st : weak_inv st ->
  exists st', reset st = (st', Ok tt) /\ new_game_on (st_size st) st st' /\ inv st'.
Proof.
  intros [I F]. pose proof F as F'. rewrite Forall_forall in F'.
  destruct (new_board_ex (st_size st) (F' _ I)) as (b & N). unfold reset. rewrite N. eexists. split; [reflexivity|].
  split; [exists b; split; [exact N|reflexivity]|]. eapply fresh_inv; eauto.
Qed.

Lemma reset_then_ok st r : weak_inv st ->
  exists st', reset_then st r = (st', r) /\ new_game_on (st_size st) st st' /\ inv st'.
Proof.
  intros I. destruct (reset_ok st I) as (st' & E & N & I'). unfold reset_then. rewrite E. eauto.
Qed.

Lemma py_min_in l m : py_min l = Ok m -> In m l /\ forall x, In x l -> m <= x.
Proof.
  destruct l as [|x l]; [discriminate|]. cbn [py_min]. intros E. injection E as <-.
  revert x. induction l as [|y l IH]; intros x; cbn [fold_left].
  - split; [left; reflexivity|]. intros z [->|[]]. lia.
  - destruct (IH (Z.min x y)) as [A B]. split.
    + destruct A as [A|A].
      * rewrite <- A. destruct (Z.min_spec x y) as [[_ ->]|[_ ->]]; [left|right; left]; reflexivity.
      * right. right. exact A.
    + intros z [->|[->|H]].
      * transitivity (Z.min z y); [apply B; left; reflexivity|lia].
      * transitivity (Z.min x z); [apply B; left; reflexivity|lia].
      * apply B. right. exact H.
Qed.

Lemma new_state_inv sizes st : new_state sizes = Ok st -> inv st.
Proof.
  unfold new_state. set (l := match sizes with None => [19] | Some l => l end).
  destruct (py_min l) as [n|e] eqn:P; cbn [bind]; [|discriminate].
  destruct (new_board n) as [b|e] eqn:N; cbn [bind]; [|discriminate]. intros E. injection E as <-.
  destruct (py_min_in _ _ P) as [I M].
  assert (2 <= n) as L. { unfold new_board in N. destruct (Z.ltb_spec n 2); [discriminate|lia]. }
  eapply fresh_inv; try reflexivity; cbn [st_sizes]; [exact I| |exact N].
  apply Forall_forall. intros x Hx. specialize (M x Hx). lia.
Qed.

(** ** The parts of the state that matter to the invariant *)

Lemma inv_same st st' : inv st -> st_sizes st' = st_sizes st -> st_size st' = st_size st ->
  st_board st' = st_board st -> st_base st' = st_base st -> st_history st' = st_history st ->
  st_ko st' = st_ko st -> st_ko_player st' = st_ko_player st -> inv st'.
Proof.
  unfold inv, consistent, moves_made. intros H -> -> -> -> -> -> ->. exact H.
Qed.

(** [get_or] and failures before any change. *)
Definition good_step (env : surroundings) (c : command) (st : gstate) (args : list bytes) (o : handled) : Prop :=
  match o with
  | (st', GOk r) => effect env c args st r st' /\ inv st'
  | (st', _) => failure c st st' /\ weak_inv st' /\ (c <> Loadsgf \/ st_size st' = st_size st -> inv st')
  end.

Lemma fail_now env c st args (r : gres (option bytes)) : inv st -> (forall a, r <> GOk a) -> good_step env c st args (st, r).
Proof.
  intros I N. unfold good_step. destruct r; try (split; [left; reflexivity|]; split; [apply inv_weak; exact I|intros _; exact I]).
  exfalso. apply (N a). reflexivity.
Qed.

Lemma get_or_step {A} env c st args (r : gres A) k : inv st ->
  (forall a, r = GOk a -> good_step env c st args (k a)) -> good_step env c st args (get_or st r k).
Proof.
  intros I H. destruct r; cbn [get_or]; auto; apply fail_now; auto; discriminate.
Qed.

Lemma existsb_eqb n l : existsb (Z.eqb n) l = true <-> In n l.
Proof.
  rewrite existsb_exists. split.
  - intros (x & H & E). apply Z.eqb_eq in E. subst. exact H.
  - intros H. exists n. split; [exact H|apply Z.eqb_refl].
Qed.

Lemma first_arg_ok {A} (f : bytes -> gres A) args a : first_arg f args = GOk a ->
  exists x rest, args = x :: rest /\ f x = GOk a.
Proof. destruct args as [|x rest]; cbn [first_arg]; [discriminate|]. eauto. Qed.

Lemma step_boardsize env st args : inv st -> good_step env Boardsize st args (handle_boardsize st args).
Proof.
  intros I. apply get_or_step; auto. intros n E. apply first_arg_ok in E. destruct E as (x & rest & -> & E).
  destruct (existsb (Z.eqb n) (st_sizes st)) eqn:M; cbn [negb].
  - apply existsb_eqb in M.
    destruct (reset_then_ok (with_size st n) (GOk None)) as (st' & Er & N & I').
    { split; [exact M|apply I]. }
    rewrite Er. split; [|exact I']. cbn [effect]. exists x, rest, n. auto.
  - apply fail_now; auto; discriminate.
Qed.

Lemma step_clear_board env st args : weak_inv st -> good_step env Clear_board st args (handle_clear_board st args).
Proof.
  intros I. unfold handle_clear_board. destruct (reset_then_ok st (GOk None) I) as (st' & E & N & I').
  rewrite E. split; [|exact I']. cbn [effect]. auto.
Qed.

Lemma set_komi_clipped st f : exists k, set_komi st f = with_komi st k /\ clipped f k.
Proof.
  destruct f as [m d]. unfold set_komi, clipped. eexists. split; [reflexivity|].
  destruct (Z.ltb_spec m (- (625 * 10 ^ Z.of_nat d))), (Z.ltb_spec (625 * 10 ^ Z.of_nat d) m);
    split; try split; intros; auto; lia.
Qed.

Lemma step_komi env st args : inv st -> good_step env Komi st args (handle_komi st args).
Proof.
  intros I. apply get_or_step; auto. intros f E. apply first_arg_ok in E. destruct E as (x & rest & -> & E).
  destruct (set_komi_clipped st f) as (k & -> & C). split.
  - cbn [effect]. exists x, rest, f, k. do 6 (split; [reflexivity || assumption|]). split; reflexivity.
  - eapply inv_same; eauto.
Qed.

(** Handicap stones. *)
Lemma handicap_done st st' b n pts : inv st -> is_empty (st_board st) = true ->
  reachable (st_size st) b ->
  (forall p, on_board (st_size st) p -> view b p = if mem_point p pts then Some Black else view (st_board st) p) ->
  st_board st' = b -> st_base st' = b -> st_ko st' = None ->
  info_of st' = mkI (st_sizes st) (st_size st) b [] (Some n) (st_komi st) (st_time_settings st) (st_time_b st) (st_time_w st) ->
  handicap_game n pts st st' /\ inv st'.
Proof.
  intros I E R V B1 B2 K Inf. pose proof I as ((A1 & A2 & A3 & _) & F & _).
  destruct (empty_black _ _ A3 E) as [_ EV]. injection Inf as S1 S2 _ S3 S4 S5 S6 S7 S8. split.
  - exists b. split; [exact R|]. split; [|unfold info_of; congruence].
    intros p Op. rewrite (V p Op), (EV p Op). reflexivity.
  - assert (moves_made st' = []) as M by (unfold moves_made; rewrite S3; reflexivity).
    split; [|split].
    + unfold consistent. rewrite M, B1, B2, S1, S2. do 4 (split; [assumption|]). apply rp_done, same_on_refl.
    + rewrite S1. exact F.
    + rewrite M, K. split; [left; reflexivity|]. intros l1 c q X. destruct l1; discriminate.
Qed.

Lemma vertex_list_ok pts s : s <= 25 -> Forall (on_board s) pts ->
  exists vs, vertex_list pts = Ok (join (str " ") vs) /\ Forall2 (fun p v => format_vertex (Some p) = Ok v) pts vs.
Proof.
  intros L F. assert (exists vs, mapm (fun p => format_vertex (Some p)) pts = Ok vs /\
                        Forall2 (fun p v => format_vertex (Some p) = Ok v) pts vs) as (vs & E & F2).
  { induction F as [|p pts O F IH]; [exists []; auto|]. destruct IH as (vs & E & F2).
    destruct (GameplayProofs.format_on_board s p L O) as (v & Ev). exists (v :: vs). cbn [mapm]. rewrite Ev, E. cbn [bind]. auto. }
  exists vs. unfold vertex_list. rewrite E. cbn [bind]. auto.
Qed.

Lemma handicap_placed pick st n pts : inv st -> is_empty (st_board st) = true ->
  handicap_points n (st_size st) = Ok pts ->
  exists b, place_black pick (st_board st) pts = (b, Ok tt) /\ reachable (st_size st) b /\
    (forall p, on_board (st_size st) p -> view b p = if mem_point p pts then Some Black else view (st_board st) p) /\
    copy b = Ok b.
Proof.
  intros I E H. pose proof I as ((_ & A2 & A3 & _) & _). destruct (empty_black _ _ A3 E) as [B EV].
  destruct (handicap_points_ok _ _ _ H) as (Hs & _ & _ & _ & ND & On & _).
  destruct (place_black_spec pick (st_size st) (0, 0) pts (st_board st)) as (b & P & R & V); auto.
  - apply Forall_forall. intros p Hp. apply On. exact Hp.
  - apply Forall_forall. intros p Hp. apply EV, On. exact Hp.
  - unfold on_board. cbn [fst snd]. lia.
  - intros Hp. apply On in Hp. cbn [fst snd] in Hp. lia.
  - apply EV. unfold on_board. cbn [fst snd]. lia.
  - exists b. split; [exact P|]. split; [exact R|]. split; [exact V|]. eapply copy_proof; eauto.
Qed.

Lemma handicap_points_err n s e : handicap_points n s = Err e -> e = ValueError.
Proof.
  rewrite handicap_points_spec. destruct (_ && _); congruence.
Qed.

Lemma step_fixed env st args : inv st -> good_step env Fixed_handicap st args (handle_fixed_handicap (env_pick env) st args).
Proof.
  intros I. apply get_or_step; auto. intros n E. apply first_arg_ok in E. destruct E as (x & rest & -> & E).
  destruct (is_empty (st_board st)) eqn:Em; cbn [negb]; [|apply fail_now; auto; discriminate].
  destruct (handicap_points n (st_size st)) as [pts|e] eqn:HP.
  2:{ pose proof (handicap_points_err _ _ _ HP). subst e. apply fail_now; auto; discriminate. }
  destruct (handicap_placed (env_pick env) st n pts I Em HP) as (b & -> & R & V & ->).
  destruct (handicap_points_ok _ _ _ HP) as (Hs & _ & _ & _ & _ & On & _).
  destruct (vertex_list_ok pts (st_size st)) as (vs & -> & F2); [lia|apply Forall_forall; intros p Hp; apply On; exact Hp|].
  cbn [lift gbind good_step].
  match goal with |- effect _ _ _ _ _ ?st' /\ _ => destruct (handicap_done st st' b n pts) as [A B]; auto end.
  split; [|exact B]. cbn [effect]. exists x, rest, n, pts, vs. do 5 (split; [reflexivity || assumption|]). auto.
Qed.

Lemma step_place_free env st args : inv st ->
  good_step env Place_free_handicap st args (handle_place_free_handicap (env_pick env) st args).
Proof.
  intros I. apply get_or_step; auto. intros n0 E. apply first_arg_ok in E. destruct E as (x & rest & -> & E).
  unfold max_free_handicap. destruct ((2 <=? n0) && (n0 <=? st_size st * st_size st - 1)) eqn:Rg; cbn [negb];
    [|apply fail_now; auto; discriminate].
  apply andb_true_iff in Rg. destruct Rg as [R1 R2]. apply Z.leb_le in R1, R2.
  destruct (is_empty (st_board st)) eqn:Em; cbn [negb]; [|apply fail_now; auto; discriminate].
  set (n := if n0 =? st_size st * st_size st - 1 then st_size st * st_size st - 1 - 1 else n0).
  unfold choose_free_handicap_moves.
  destruct (max_fixed_handicap (st_size st)) as [m|e] eqn:MF; cbn [bind]; [|apply fail_now; auto; discriminate].
  destruct (handicap_points (Z.min n m) (st_size st)) as [pts|e] eqn:HP; [|apply fail_now; auto; discriminate].
  destruct (handicap_points_ok _ _ _ HP) as (Hs & _ & _ & Len & _ & On & _).
  destruct (Z.ltb_spec n (Z.of_nat (List.length pts))) as [X|_]; [lia|].
  destruct (handicap_placed (env_pick env) st _ pts I Em HP) as (b & -> & R & V & ->).
  destruct (vertex_list_ok pts (st_size st)) as (vs & -> & F2); [lia|apply Forall_forall; intros p Hp; apply On; exact Hp|].
  cbn [lift gbind good_step].
  match goal with |- effect _ _ _ _ _ ?st' /\ _ => destruct (handicap_done st st' b n pts) as [A B]; auto end.
  split; [|exact B]. cbn [effect]. exists x, rest, n0, m, pts, vs.
  assert (Z.min n0 m = Z.min n m) as EQ.
  { unfold n. destruct (Z.eqb_spec n0 (st_size st * st_size st - 1)); [|reflexivity].
    assert (m <= 9). { rewrite max_fixed_spec in MF.
      repeat match type of MF with context [if ?x then _ else _] => destruct x end; try discriminate; injection MF as <-; lia. }
    nia. }
  do 4 (split; [reflexivity || assumption || lia|]). split; [exact MF|]. rewrite EQ. split; [exact HP|].
  split; [|auto]. unfold n in A. destruct (Z.eqb_spec n0 (st_size st * st_size st - 1)) as [Q|Q]; [rewrite Q|]; exact A.
Qed.
