(** Proofs about the SGF grammar model: what the parser can return on any input (C11). *)
From Verif Require Import Base Bytes SgfGrammarModel SgfGrammarSpec SgfGrammarProofs SgfParserProofs.

(** * What the tokeniser produces *)

Inductive tok_ok : token -> Prop :=
| ok_I k : parsed_ident k -> tok_ok (TokI k)
| ok_V v : good_value v -> tok_ok (TokV v)
| ok_D c : c = ";"%char \/ c = "("%char \/ c = ")"%char -> tok_ok (TokD c).

Inductive nest : nat -> list token -> Prop :=
| n_nil d : nest d []
| n_I d k ts : nest d ts -> nest d (TokI k :: ts)
| n_V d v ts : nest d ts -> nest d (TokV v :: ts)
| n_semi d ts : nest d ts -> nest d (TokD ";"%char :: ts)
| n_open d ts : nest (S d) ts -> nest d (TokD "("%char :: ts)
| n_last : nest 1 [TokD ")"%char]
| n_close d ts : (1 <= d)%nat -> nest d ts -> nest (S d) (TokD ")"%char :: ts).

Lemma scan_value_ok : forall n s v tl, (List.length s <= n)%nat ->
  scan_value s = Some (v, tl) -> good_value v.
Proof.
  induction n as [|n IH]; intros s v tl L E; destruct s as [|c s]; try discriminate; simpl in L; [lia|].
  cbn [scan_value] in E. destruct (ceqb_spec c char_rb) as [->|N1]; [inv E; constructor|].
  destruct (ceqb_spec c char_bs) as [->|N2].
  - destruct s as [|d s]; [discriminate|]. simpl in L.
    destruct (scan_value s) as [[v' tl']|] eqn:T; [|discriminate]. inv E.
    apply gv_escaped. apply (IH s v' tl); auto. lia.
  - destruct (scan_value s) as [[v' tl']|] eqn:T; [|discriminate]. inv E.
    apply gv_plain; auto. apply (IH s v' tl); auto. lia.
Qed.

Lemma take_letters_ok : forall n s a b, take_letters n s = (a, b) ->
  (List.length a <= n)%nat /\ Forall (fun c => is_letter c = true) a.
Proof.
  induction n as [|n IH]; intros s a b E; destruct s as [|c s]; simpl in E;
    try (inv E; split; [simpl; lia|constructor]).
  destruct (is_letter c) eqn:Lc; [|inv E; split; [simpl; lia|constructor]].
  destruct (take_letters n s) as [x y] eqn:T. inv E. apply IH in T. destruct T.
  split; [simpl; lia|constructor; auto].
Qed.

Lemma next_token_ok s t rest : next_token s = Some (t, rest) -> tok_ok t.
Proof.
  unfold next_token. destruct (skip_space s) as [|c s']; [discriminate|].
  destruct (ceqb c char_lb).
  - destruct (scan_value s') as [[v tl]|] eqn:E; [|discriminate]. intros H. inv H.
    constructor. apply (scan_value_ok (List.length s') s' v rest); auto.
  - destruct (is_letter c).
    + destruct (take_letters 64 (c :: s')) as [a b] eqn:E. intros H. inv H.
      apply take_letters_ok in E. destruct E as [L F]. constructor. split.
      * assert (forall f (l : bytes), (List.length (filter f l) <= List.length l)%nat) as FL.
        { clear. intros f. induction l as [|x l IH]; simpl; auto. destruct (f x); simpl; lia. }
        specialize (FL (fun x => negb (is_lower x)) a). lia.
      * rewrite Forall_forall in *. intros x Hx. apply filter_In in Hx. destruct Hx as [Hx Nl].
        specialize (F x Hx). unfold is_letter in F. apply negb_true_iff in Nl.
        rewrite Nl, orb_false_r in F. unfold is_upper in F. apply andb_true_iff in F.
        rewrite !Z.leb_le in F. lia.
    + destruct (ceqb_spec c ";"%char); [|destruct (ceqb_spec c "("%char);
        [|destruct (ceqb_spec c ")"%char)]]; simpl; intros H; inv H; constructor; auto.
Qed.

Lemma toks_ok : forall n s d, (List.length s <= n)%nat -> (1 <= d)%nat ->
  exists ts tl, toks s (Z.of_nat d) = Ok (ts, tl) /\ nest d ts /\ Forall tok_ok ts.
Proof.
  induction n as [|n IH]; intros s d L Hd.
  - destruct s; simpl in L; [|lia]. exists [], []. repeat split; constructor.
  - rewrite toks_step. destruct (next_token s) as [[t rest]|] eqn:E.
    2:{ exists [], s. repeat split; constructor. }
    pose proof (next_token_length _ _ _ E) as Ll. pose proof (next_token_ok _ _ _ E) as Ot.
    assert (forall d', (1 <= d')%nat ->
              exists ts tl, toks rest (Z.of_nat d') = Ok (ts, tl) /\ nest d' ts /\ Forall tok_ok ts) as R
      by (intros; apply IH; lia).
    clear IH. destruct t as [i|v|c].
    + destruct (R d Hd) as (ts & tl & -> & N & F). cbn [bind].
      exists (TokI i :: ts), tl. repeat split; constructor; auto.
    + destruct (R d Hd) as (ts & tl & -> & N & F). cbn [bind].
      exists (TokV v :: ts), tl. repeat split; constructor; auto.
    + inversion Ot as [| |c' Hc]; subst.
      destruct Hc as [->|[->| ->]].
      * change (ceqb ";" "(") with false. change (ceqb ";" ")") with false. cbv iota.
        destruct (R d Hd) as (ts & tl & -> & N & F). cbn [bind].
        eexists _, _. split; [reflexivity|]. split; constructor; auto.
      * change (ceqb "(" "(") with true. cbv iota.
        replace (Z.of_nat d + 1) with (Z.of_nat (S d)) by lia.
        destruct (R (S d)) as (ts & tl & -> & N & F); [lia|]. cbn [bind].
        eexists _, _. split; [reflexivity|]. split; constructor; auto.
      * change (ceqb ")" "(") with false. change (ceqb ")" ")") with true. cbv iota.
        destruct (Z.eqb_spec (Z.of_nat d - 1) 0) as [E1|E1].
        -- assert (d = 1%nat) as -> by lia. eexists _, _. split; [reflexivity|].
           split; [constructor|]. constructor; [exact Ot|constructor].
        -- destruct d as [|d]; [lia|]. replace (Z.of_nat (S d) - 1) with (Z.of_nat d) by lia.
           destruct (R d) as (ts & tl & -> & N & F); [lia|]. cbn [bind].
           eexists _, _. split; [reflexivity|]. split; constructor; auto. lia.
Qed.

Lemma find_start_paren s s' : find_start s = Some s' -> exists r, s' = "("%char :: r.
Proof.
  induction s as [|c s IH]; simpl; [discriminate|].
  destruct (ceqb_spec c "("%char) as [->|N]; simpl; auto.
  destruct (match skip_space s with [] => false | x :: _ => ceqb x ";" end); auto.
  intros E. inv E. eauto.
Qed.

Lemma tokenise_ok s : exists ts tl, tokenise s = Ok (ts, tl) /\
  (ts = [] \/ exists ts', ts = TokD "("%char :: ts' /\ nest 1 ts' /\ Forall tok_ok ts').
Proof.
  unfold tokenise. destruct (find_start s) as [s'|] eqn:E.
  2:{ exists [], s. auto. }
  apply find_start_paren in E. destruct E as [r ->].
  fold (toks ("("%char :: r) 0).
  pose proof (toks_delim [] "("%char 0 r (Forall_nil _)) as T. cbn [app] in T. rewrite T by auto.
  change (ceqb "(" "(") with true. cbv iota.
  destruct (toks_ok (List.length r) r 1) as (ts & tl & E & N & F); auto.
  change (0 + 1) with (Z.of_nat 1). rewrite E. cbn [pre bind].
  eexists _, _. split; [reflexivity|]. right. exists ts. auto.
Qed.

(** * The parser's invariant *)

Definition fine_tree (g : gtree) : Prop :=
  gt_sequence g <> [] /\ Forall parsed_node (gt_sequence g) /\ Forall parsed_tree (gt_children g).

Definition open_tree (g : gtree) (sq : option (list pmap)) (props : option pmap) : Prop :=
  Forall parsed_tree (gt_children g) /\
  match sq with
  | None => gt_sequence g <> [] /\ Forall parsed_node (gt_sequence g) /\ props = None
  | Some l => Forall parsed_node l /\ match props with None => True | Some m => parsed_node m end
  end.

Definition inv_state (d : nat) (st : pstate) : Prop :=
  exists gs g, p_stack st = map Some gs ++ [None] /\ List.length (p_stack st) = d /\
    p_tree st = Some g /\ Forall fine_tree gs /\ open_tree g (p_seq st) (p_props st).

Definition parse_good (r : res (ctree * list token)) : Prop :=
  r = Err ValueError \/ exists t, r = Ok (t, []) /\ parsed_tree t.

Lemma full_sequence_parsed l props : Forall parsed_node l ->
  match props with None => True | Some m => parsed_node m end ->
  Forall parsed_node (full_sequence l props).
Proof.
  destruct props; simpl; auto. intros. apply Forall_app. split; auto.
Qed.

Lemma open_fine g sq props : open_tree g sq props ->
  (forall l, sq = Some l -> full_sequence l props <> []) -> fine_tree (closed g sq props).
Proof.
  intros [C O] H. destruct sq as [l|]; unfold fine_tree, closed.
  - cbn [gt_sequence gt_children]. destruct O. repeat split; auto.
    apply full_sequence_parsed; auto.
  - destruct O as (O1 & O2 & _). auto.
Qed.

Lemma fine_parsed g : fine_tree g -> parsed_tree (ct_of g).
Proof. intros (A & B & C). constructor; auto. Qed.

Lemma span_values_ok ts d : nest d ts -> Forall tok_ok ts ->
  Forall good_value (fst (span_values ts)) /\ nest d (snd (span_values ts)) /\
  Forall tok_ok (snd (span_values ts)).
Proof.
  intros N. induction N; intros F; simpl; try (repeat split; auto; constructor; auto; fail).
  inv F. destruct (span_values ts) as [a b]. simpl in *. destruct IHN as (A & B & C); auto.
  repeat split; auto. constructor; auto. inv H1. auto.
Qed.

Lemma add_values_keys k v m : forall x, In x (map fst (add_values k v m)) <-> x = k \/ In x (map fst m).
Proof.
  induction m as [|[k' v'] m IH]; simpl; intros x; [intuition congruence|].
  destruct (bytes_eqb_spec k k') as [->|N]; simpl; [intuition congruence|].
  rewrite IH. intuition congruence.
Qed.

Lemma add_values_parsed k v m : parsed_ident k -> v <> [] -> Forall good_value v ->
  parsed_node m -> parsed_node (add_values k v m).
Proof.
  intros Hk Nv Gv [ND F]. split.
  - clear F. induction m as [|[k' v'] m IH]; simpl; [constructor; auto; constructor|].
    inv ND. destruct (bytes_eqb_spec k k') as [->|N]; simpl; [constructor; auto|].
    constructor; auto. rewrite add_values_keys. intuition congruence.
  - clear ND. induction F as [|[k' v'] m H F IH]; simpl; [constructor; [cbn [fst snd]; auto|constructor]|].
    destruct (bytes_eqb_spec k k') as [->|N]; constructor; auto. cbn [fst snd] in *.
    destruct H as (A & B & C). split; [exact A|]. split.
    + destruct v'; [congruence|discriminate].
    + apply Forall_app; auto.
Qed.

Lemma parse_nil st : parse [] st = Err ValueError. Proof. reflexivity. Qed.

Lemma tok_ok_I k : tok_ok (TokI k) -> parsed_ident k.
Proof. intros H. inv H. auto. Qed.

Lemma inv_parse : forall n ts d st, (List.length ts <= n)%nat ->
  nest d ts -> Forall tok_ok ts -> inv_state d st -> parse_good (parse ts st).
Proof.
  induction n as [|n IH]; intros ts d st L N F I.
  - destruct ts; simpl in L; [|lia]. left. reflexivity.
  - destruct I as (gs & g & Es & Ed & Et & Fg & Og).
    destruct st as [stk tr sq props]. cbn [p_stack p_tree p_seq p_props] in *. subst tr stk.
    assert (forall l, sq = Some l -> full_sequence l props = [] ->
       forall c rest, c <> ";"%char ->
       parse (TokD c :: rest) (mkP (map Some gs ++ [None]) (Some g) sq props) = Err ValueError) as EMP.
    { intros l -> E c rest Nc. unfold parse. cbn [List.length parse_loop p_seq p_props].
      destruct (ceqb_spec c ";"%char); [contradiction|]. rewrite E. reflexivity. }
    assert ((forall l, sq = Some l -> full_sequence l props <> []) \/
            (exists l, sq = Some l /\ full_sequence l props = [])) as DEC.
    { destruct sq as [l|]; [|left; intros; discriminate].
      destruct (full_sequence l props) eqn:E; [right; eauto|left].
      intros l' E'. inv E'. rewrite E. discriminate. }
    destruct N as [d|d k ts N|d v ts N|d ts N|d ts N| |d ts Hd N]; simpl in L.
    + left. reflexivity.
    + (* TokI *)
      pose proof (Forall_inv F) as H1; apply Forall_inv_tail in F; apply tok_ok_I in H1.
      destruct (span_values_ok ts d N F) as (V & N' & F').
      unfold parse. cbn [List.length parse_loop p_seq p_props p_tree p_stack].
      pose proof (span_values_length ts) as SL.
      destruct (span_values ts) as [vals rest']. cbn [fst snd] in *.
      destruct rest' as [|t r]; [left; reflexivity|]. destruct vals as [|v vals]; [left; reflexivity|].
      destruct props as [m|]; [|left; reflexivity].
      rewrite (parse_fuel (List.length (t :: r)) _ _ _ (List.length (t :: r))) by lia.
      apply (IH _ d); auto; [lia|].
      eexists gs, g. repeat split; auto; try apply Og.
      destruct sq as [l|]; cbn [p_seq p_props].
      * destruct Og as (_ & Fl & Pm). split; auto. apply add_values_parsed; auto. discriminate.
      * destruct Og as (_ & _ & _ & C). discriminate.
    + left. reflexivity.
    + (* ; *)
      apply Forall_inv_tail in F. destruct sq as [l|]; [|left; reflexivity].
      rewrite parse_step_node. apply (IH _ d); auto; [lia|].
      exists gs, g. repeat split; auto; try apply Og; cbn [p_seq p_props].
      * destruct Og as (_ & Fl & Pm). apply full_sequence_parsed; auto.
      * constructor.
    + (* ( *)
      apply Forall_inv_tail in F. destruct DEC as [NE|(l & E1 & E2)].
      * rewrite parse_open by exact NE. apply (IH _ (S d)); auto; [lia|].
        exists (closed g sq props :: gs), (mkG [] []).
        cbn [p_stack p_tree p_seq p_props map app List.length]. repeat split; auto.
        -- constructor; auto. apply open_fine; auto.
        -- constructor.
      * left. eapply EMP; eauto. discriminate.
    + (* last ) *)
      destruct DEC as [NE|(l & E1 & E2)]; [|left; eapply EMP; eauto; discriminate].
      destruct gs as [|x gs]; [|simpl in Ed; rewrite app_length in Ed; simpl in Ed; lia].
      cbn [map app]. right. exists (ct_of (closed g sq props)).
      rewrite parse_step_close_top by exact NE. split; auto.
      apply fine_parsed, open_fine; auto.
    + (* ) *)
      destruct DEC as [NE|(l & E1 & E2)]; [|left; eapply EMP; eauto; discriminate].
      apply Forall_inv_tail in F. destruct gs as [|x gs]; [simpl in Ed; lia|]. cbn [map app].
      rewrite parse_step_close by exact NE. pose proof (Forall_inv Fg) as H3; apply Forall_inv_tail in Fg.
      apply (IH _ d); auto; [lia|].
      exists gs, (mkG (gt_sequence x) (gt_children x ++ [ct_of (closed g sq props)])).
      cbn [p_stack p_tree p_seq p_props]. repeat split; auto.
      -- cbn [gt_children]. apply Forall_app. split; [apply H3|].
         constructor; [|constructor]. apply fine_parsed, open_fine; auto.
      -- apply H3.
      -- apply H3.
Qed.

Lemma parse_at_good s :
  parse_sgf_game_at s = Err ValueError \/ parse_sgf_game_at s = Ok None \/
  exists t tl, parse_sgf_game_at s = Ok (Some (t, tl)) /\ parsed_tree t.
Proof.
  unfold parse_sgf_game_at. destruct (tokenise_ok s) as (ts & tl & -> & H). cbn [bind].
  destruct H as [->|(ts' & -> & N & F)]; [auto|].
  fold (parse (TokD "("%char :: ts') (mkP [] None None None)).
  rewrite parse_step_open_next.
  destruct (inv_parse (List.length ts') ts' 1 (mkP [None] (Some (mkG [] [])) (Some []) None))
    as [E|(t & E & P)]; auto.
  - exists [], (mkG [] []). repeat split; constructor.
  - rewrite E. auto.
  - rewrite E. cbn [bind]. right. right. eauto.
Qed.

Lemma C11_game_proof s :
  (exists t, parse_sgf_game s = Ok t /\ parsed_tree t) \/ parse_sgf_game s = Err ValueError.
Proof.
  unfold parse_sgf_game.
  destruct (parse_at_good s) as [E|[E|(t & tl & E & P)]]; rewrite E; cbn [bind]; eauto.
Qed.

(** A parsed game leaves a shorter tail. *)
Lemma toks_tail : forall n s d ts tl, (List.length s <= n)%nat -> toks s d = Ok (ts, tl) ->
  (List.length tl <= List.length s)%nat /\ (ts <> [] -> (List.length tl < List.length s)%nat).
Proof.
  induction n as [|n IH]; intros s d ts tl L E.
  - destruct s; simpl in L; [|lia]. inv E. split; [auto|congruence].
  - rewrite toks_step in E. destruct (next_token s) as [[t rest]|] eqn:T.
    2:{ inv E. split; [auto|congruence]. }
    pose proof (next_token_length _ _ _ T) as Ll.
    assert (forall d ts tl, toks rest d = Ok (ts, tl) -> (List.length tl <= List.length rest)%nat) as R.
    { intros d' ts' tl' E'. apply (IH rest d' ts' tl'); auto. lia. }
    assert (forall d', (do (ts', tl') <- toks rest d'; Ok (t :: ts', tl')) = Ok (ts, tl) ->
              (List.length tl < List.length s)%nat) as R2.
    { intros d' E'. destruct (toks rest d') as [[ts' tl']|] eqn:Q; [|discriminate].
      cbn [bind] in E'. inv E'. apply R in Q. lia. }
    assert (List.length tl < List.length s)%nat as G.
    { destruct t as [i|v|c]; try (eapply R2; eauto; fail).
      destruct (ceqb c "("%char); [eapply R2; eauto|].
      destruct (ceqb c ")"%char); [|eapply R2; eauto].
      destruct (d - 1 =? 0); [inv E; lia|eapply R2; eauto]. }
    split; [lia|auto].
Qed.

Lemma find_start_length s s' : find_start s = Some s' -> (List.length s' <= List.length s)%nat.
Proof.
  induction s as [|c s IH]; simpl; [discriminate|].
  destruct (ceqb c "("%char && _); [intros E; inv E; simpl; lia|]. intros E. apply IH in E. lia.
Qed.

Lemma parse_at_tail s t tl : parse_sgf_game_at s = Ok (Some (t, tl)) ->
  (List.length tl < List.length s)%nat.
Proof.
  unfold parse_sgf_game_at. destruct (tokenise s) as [[ts tl']|] eqn:E; [|discriminate].
  cbn [bind]. destruct ts as [|x ts]; [discriminate|].
  destruct (parse_loop _ _ _) as [[t' rest]|]; [|discriminate]. cbn [bind].
  destruct rest; [|discriminate]. intros H. inv H.
  unfold tokenise in E. destruct (find_start s) as [s'|] eqn:S; [|discriminate].
  apply find_start_length in S. fold (toks s' 0) in E.
  apply (toks_tail (List.length s')) in E; auto. destruct E as [_ E].
  assert (x :: ts <> []) as N by discriminate. apply E in N. lia.
Qed.

Lemma collection_good : forall f s acc, (List.length s <= f)%nat -> Forall parsed_tree acc ->
  (exists ts, collection_loop f s acc = Ok ts /\ ts <> [] /\ Forall parsed_tree ts) \/
  collection_loop f s acc = Err ValueError.
Proof.
  induction f as [|f IH]; intros s acc L F; cbn [collection_loop];
    destruct (parse_at_good s) as [E|[E|(t & tl & E & P)]]; rewrite E; auto.
  - destruct acc as [|a acc]; [auto|]. left. eexists. repeat split; auto. discriminate.
  - apply parse_at_tail in E. lia.
  - destruct acc as [|a acc]; [auto|]. left. eexists. repeat split; auto. discriminate.
  - apply parse_at_tail in E. apply IH; [lia|]. apply Forall_app. auto.
Qed.

Lemma C11_collection_proof s :
  (exists ts, parse_sgf_collection s = Ok ts /\ ts <> [] /\ Forall parsed_tree ts) \/
  parse_sgf_collection s = Err ValueError.
Proof. apply collection_good; auto. Qed.

Lemma named_good t : parsed_tree t -> named_tree t -> good_tree t.
Proof.
  induction t as [sq ch IH] using ctree_ind'. intros P N. inv P. inv N. constructor; auto.
  - clear - H2 H4. induction H2 as [|m sq Hm F IHs]; [constructor|]. inv H4. constructor; auto.
    destruct Hm as [ND Fm]. split; auto. rewrite Forall_forall in *. intros kv Hkv.
    destruct (Fm kv Hkv) as ((A & B) & C & D). repeat split; auto.
    intros E. apply H1. rewrite <- E. apply in_map. exact Hkv.
  - clear - IH H3 H5. induction IH as [|c ch Hc Hch IHc]; [constructor|].
    inv H3. inv H5. constructor; auto.
Qed.

Lemma C11_reparse_proof s t wrap : parse_sgf_game s = Ok t -> named_tree t ->
  exists out t', serialise_game_tree t wrap = Ok out /\ parse_sgf_game out = Ok t' /\ same_tree t t'.
Proof.
  intros E N. apply C10_game_proof. apply named_good; auto.
  destruct (C11_game_proof s) as [(t' & E' & P)|E']; congruence.
Qed.
