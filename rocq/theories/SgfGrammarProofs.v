(** Proofs about the SGF grammar model: tokeniser and serialiser. *)
From Verif Require Import Base Bytes SgfGrammarModel SgfGrammarSpec.

Ltac inv H := inversion H; subst; clear H.

(** * Characters *)

Lemma upper_letter c : is_upper c = true -> is_letter c = true.
Proof. unfold is_letter. intros ->. reflexivity. Qed.

Lemma upper_not_lower : forall c, implb (is_upper c) (negb (is_lower c)) = true.
Proof. apply forall_chars. vm_compute. reflexivity. Qed.

Lemma letter_not_space : forall c, implb (is_letter c) (negb (is_space c)) = true.
Proof. apply forall_chars. vm_compute. reflexivity. Qed.

Lemma letter_not_special : forall c, implb (is_letter c)
  (negb (ceqb c char_lb || ceqb c ";"%char || ceqb c "("%char || ceqb c ")"%char)) = true.
Proof. apply forall_chars. vm_compute. reflexivity. Qed.

Lemma good_ident_valid k : good_ident k <-> is_valid_property_identifier k = true.
Proof.
  unfold good_ident, is_valid_property_identifier.
  rewrite !andb_true_iff, forallb_forall, Nat.leb_le, Nat.leb_le, Forall_forall.
  assert (forall c, is_upper c = true <-> 65 <= ord c <= 90) as U.
  { intros c. unfold is_upper. rewrite andb_true_iff, !Z.leb_le. tauto. }
  split.
  - intros (N & L & F). repeat split; auto.
    + intros c Hc. apply U. auto.
    + destruct k; simpl in *; [congruence|lia].
  - intros ((F & N) & L). repeat split; auto.
    + intros ->. simpl in N. lia.
    + apply F in H. apply U in H. lia.
    + apply F in H. apply U in H. lia.
Qed.

Lemma good_value_valid v : good_value v <-> is_valid_property_value v = true.
Proof.
  split.
  - induction 1 as [|c v N1 N2 G IH|c v G IH]; cbn [is_valid_property_value]; auto.
    destruct (ceqb_spec c char_bs); [contradiction|].
    destruct (ceqb_spec c char_rb); [contradiction|]. auto.
  - remember (List.length v) as n. revert v Heqn.
    induction n as [n IH] using lt_wf_ind. intros [|c v] E; [constructor|].
    cbn [is_valid_property_value]. destruct (ceqb_spec c char_bs) as [->|N1].
    + destruct v as [|d v]; [discriminate|]. intros H. apply gv_escaped.
      apply (IH (List.length v)); auto. simpl in E. lia.
    + destruct (ceqb_spec c char_rb) as [->|N2]; [discriminate|]. intros H.
      apply gv_plain; auto. apply (IH (List.length v)); auto. simpl in E. lia.
Qed.

Lemma C10_validity_proof s : (is_valid_property_identifier s = true <-> good_ident s) /\
  (is_valid_property_value s = true <-> good_value s).
Proof. split; split; intros H; (apply good_ident_valid || apply good_value_valid); auto. Qed.

(** * Scanners *)

Lemma skip_space_app w s : Forall (fun c => is_space c = true) w -> skip_space (w ++ s) = skip_space s.
Proof. induction 1 as [|c w H F IH]; simpl; auto. rewrite H. auto. Qed.

Lemma next_token_app w s : Forall (fun c => is_space c = true) w ->
  next_token (w ++ s) = next_token s.
Proof. intros H. unfold next_token. rewrite skip_space_app by auto. reflexivity. Qed.

Lemma skip_space_nonspace c s : is_space c = false -> skip_space (c :: s) = c :: s.
Proof. simpl. intros ->. reflexivity. Qed.

Lemma scan_value_good v rest : good_value v -> scan_value (v ++ char_rb :: rest) = Some (v, rest).
Proof.
  induction 1 as [|c v N1 N2 G IH|c v G IH]; cbn [app scan_value].
  - reflexivity.
  - destruct (ceqb_spec c char_rb); [contradiction|].
    destruct (ceqb_spec c char_bs); [contradiction|]. rewrite IH. reflexivity.
  - change (ceqb "\" char_rb) with false. change (ceqb "\" char_bs) with true. cbv iota.
    rewrite IH. reflexivity.
Qed.

Lemma take_letters_upper k : forall n rest,
  (List.length k <= n)%nat -> Forall (fun c => is_letter c = true) k ->
  match rest with [] => True | c :: _ => is_letter c = false end ->
  take_letters n (k ++ rest) = (k, rest).
Proof.
  induction k as [|c k IH]; intros n rest L F R; simpl.
  - destruct n, rest; simpl; auto. rewrite R. reflexivity.
  - inv F. destruct n; simpl in L; [lia|]. simpl. rewrite H1.
    rewrite IH; auto. lia.
Qed.

Lemma next_token_length s t rest : next_token s = Some (t, rest) ->
  (List.length rest < List.length s)%nat.
Proof.
  unfold next_token. intros H.
  assert (forall s, (List.length (skip_space s) <= List.length s)%nat) as SK.
  { clear. induction s as [|c s IH]; simpl; auto. destruct (is_space c); simpl; lia. }
  assert (forall n s a b, take_letters n s = (a, b) ->
            (List.length a + List.length b = List.length s)%nat) as TL.
  { clear. induction n as [|n IH]; intros s a b E; destruct s as [|c s]; simpl in E.
    - inv E; auto. - inv E; auto. - inv E; auto.
    - destruct (is_letter c).
      + destruct (take_letters n s) as [x y] eqn:T. inv E. apply IH in T. simpl. lia.
      + inv E. simpl. lia. }
  assert (forall n s v tl, (List.length s < n)%nat -> scan_value s = Some (v, tl) ->
            (List.length tl < List.length s)%nat) as SV.
  { clear. induction n as [|n IH]; intros s v tl L E; [lia|].
    destruct s as [|c s]; [discriminate|]. cbn [scan_value] in E.
    destruct (ceqb c char_rb); [inv E; simpl; lia|].
    destruct (ceqb c char_bs).
    - destruct s as [|d s]; [discriminate|].
      destruct (scan_value s) as [[v' tl']|] eqn:T; [|discriminate]. inv E.
      apply IH in T; simpl in *; lia.
    - destruct (scan_value s) as [[v' tl']|] eqn:T; [|discriminate]. inv E.
      apply IH in T; simpl in *; lia. }
  specialize (SK s). destruct (skip_space s) as [|c s'] eqn:E; [discriminate|].
  simpl in SK. destruct (ceqb c char_lb).
  - destruct (scan_value s') as [[v tl]|] eqn:T; [|discriminate]. inv H.
    apply (SV (S (List.length s'))) in T; lia.
  - destruct (is_letter c) eqn:Lc.
    + destruct (take_letters 64 (c :: s')) as [a b] eqn:T. inv H.
      pose proof (TL _ _ _ _ T) as E2.
      destruct a as [|a0 a]; [|simpl in E2; lia].
      cbn [take_letters] in T. rewrite Lc in T.
      match type of T with (let (_, _) := ?u in _) = _ => destruct u end. congruence.
    + destruct (ceqb c ";"%char || ceqb c "("%char || ceqb c ")"%char); [|discriminate].
      inv H. lia.
Qed.

(** * Fuel for the tokeniser *)

Lemma tokenise_fuel : forall n s d f f',
  (List.length s <= n)%nat -> (List.length s <= f)%nat -> (List.length s <= f')%nat ->
  tokenise_loop f s d = tokenise_loop f' s d.
Proof.
  induction n as [|n IH]; intros s d f f' Ln Lf Lf'.
  - destruct s as [|c s]; simpl in *; [|lia].
    destruct f, f'; reflexivity.
  - destruct f as [|f], f' as [|f']; cbn [tokenise_loop].
    + reflexivity.
    + destruct s; simpl in *; [reflexivity|lia].
    + destruct s; simpl in *; [reflexivity|lia].
    + destruct (next_token s) as [[t rest]|] eqn:E; auto.
      pose proof (next_token_length _ _ _ E) as L.
      assert (forall d, tokenise_loop f rest d = tokenise_loop f' rest d) as R
        by (intros; apply IH; lia).
      destruct t; rewrite ?R; auto.
Qed.

Definition toks (s : bytes) (d : Z) := tokenise_loop (List.length s) s d.

Lemma toks_step s d :
  toks s d =
  match next_token s with
  | None => Ok ([], s)
  | Some (t, rest) =>
      match t with
      | TokD c =>
          if ceqb c "("%char then do (ts, tl) <- toks rest (d + 1); Ok (t :: ts, tl)
          else if ceqb c ")"%char then
            if d - 1 =? 0 then Ok ([t], rest)
            else do (ts, tl) <- toks rest (d - 1); Ok (t :: ts, tl)
          else do (ts, tl) <- toks rest d; Ok (t :: ts, tl)
      | _ => do (ts, tl) <- toks rest d; Ok (t :: ts, tl)
      end
  end.
Proof.
  unfold toks at 1. destruct (next_token s) as [[t rest]|] eqn:E.
  - pose proof (next_token_length _ _ _ E) as L.
    destruct (List.length s) as [|n] eqn:En; [lia|]. cbn [tokenise_loop]. rewrite E.
    assert (forall d, tokenise_loop n rest d = toks rest d) as R.
    { intros d'. apply (tokenise_fuel n); lia. }
    destruct t; rewrite ?R; auto.
  - destruct (List.length s); cbn [tokenise_loop]; rewrite E; reflexivity.
Qed.

(** Prepending tokens to a result. *)
Definition pre (ts : list token) (r : res (list token * bytes)) : res (list token * bytes) :=
  do (ts', tl) <- r; Ok (ts ++ ts', tl).

Lemma pre_pre a b r : pre a (pre b r) = pre (a ++ b) r.
Proof. destruct r as [[ts tl]|]; simpl; auto. rewrite app_assoc. reflexivity. Qed.

Lemma pre_nil r : pre [] r = r.
Proof. destruct r as [[ts tl]|]; reflexivity. Qed.

(** * Laying out pieces *)

Definition ws (w : bytes) : Prop := Forall (fun c => is_space c = true) w.

Inductive layout : list bytes -> bytes -> Prop :=
| lay_nil : layout [] []
| lay_cons w p ps out : ws w -> layout ps out -> layout (p :: ps) (w ++ p ++ out).

Lemma layout_app ps qs a b : layout ps a -> layout qs b -> layout (ps ++ qs) (a ++ b).
Proof.
  induction 1 as [|w p ps out W L IH]; simpl; auto.
  intros H. rewrite <- !app_assoc. constructor; auto.
Qed.

Lemma layout_concat ps : layout ps (List.concat ps).
Proof.
  induction ps as [|p ps IH]; simpl; [constructor|].
  change (p ++ List.concat ps) with ([] ++ p ++ List.concat ps). constructor; auto. constructor.
Qed.

Lemma layout_one p out : layout [p] out -> exists w, ws w /\ out = w ++ p.
Proof.
  intros H. inv H. inv H4. exists w. split; auto. rewrite app_nil_r. reflexivity.
Qed.

Lemma layout_split ps qs out : layout (ps ++ qs) out ->
  exists a b, out = a ++ b /\ layout ps a /\ layout qs b.
Proof.
  revert out. induction ps as [|p ps IH]; simpl; intros out H.
  - exists [], out. repeat split; auto. constructor.
  - inv H. destruct (IH _ H4) as (a & b & -> & La & Lb).
    exists (w ++ p ++ a), b. rewrite !app_assoc. repeat split; auto.
    rewrite <- app_assoc. constructor; auto.
Qed.

Lemma block_lines_layout width : forall pieces lines line,
  (exists out, layout pieces out /\
     join [char_lf] (block_lines width pieces lines line) = join [char_lf] (lines ++ [line]) ++ out) \/
  (line = [] /\ exists out, layout pieces out /\
     join [char_lf] (block_lines width pieces lines line) = join [char_lf] lines ++ out).
Proof.
  assert (forall lines (a b : bytes), join [char_lf] (lines ++ [a ++ b]) = join [char_lf] (lines ++ [a]) ++ b) as J1.
  { induction lines as [|x l IH]; intros a b; simpl; auto.
    destruct l as [|y l]; simpl in *.
    - rewrite app_assoc_reverse. simpl. reflexivity.
    - rewrite (IH a b). rewrite <- !app_assoc. simpl. reflexivity. }
  assert (forall lines (a b : bytes), join [char_lf] ((lines ++ [a]) ++ [b]) = join [char_lf] (lines ++ [a]) ++ char_lf :: b) as J2.
  { induction lines as [|x l IH]; intros a b; simpl; auto.
    destruct l as [|y l]; simpl in *.
    - rewrite app_assoc_reverse. simpl. reflexivity.
    - rewrite (IH a b). rewrite <- !app_assoc. simpl. reflexivity. }
  induction pieces as [|s rest IH]; intros lines line; cbn [block_lines].
  - destruct line as [|c line].
    + right. split; auto. exists []. split; [constructor|]. rewrite app_nil_r. reflexivity.
    + left. exists []. split; [constructor|]. rewrite app_nil_r. reflexivity.
  - destruct (_ >? width).
    + destruct (IH (lines ++ [line]) s) as [(out & L & E)|(-> & out & L & E)].
      * left. exists ([char_lf] ++ s ++ out). split.
        { constructor; auto. repeat constructor. }
        rewrite E, J2, <- app_assoc. reflexivity.
      * left. exists ([] ++ [] ++ out). split; [constructor; auto; constructor|].
        rewrite E. reflexivity.
    + destruct (IH lines (line ++ s)) as [(out & L & E)|(H & out & L & E)].
      * left. exists ([] ++ s ++ out). split; [constructor; auto; constructor|].
        rewrite E, J1, <- app_assoc. reflexivity.
      * apply app_eq_nil in H. destruct H as [-> ->]. right. split; auto.
        exists ([] ++ [] ++ out). split; [constructor; auto; constructor|]. exact E.
Qed.

Lemma block_format_layout pieces width : layout pieces (block_format pieces width).
Proof.
  unfold block_format.
  destruct (block_lines_layout width pieces [] []) as [(out & L & E)|(_ & out & L & E)];
    rewrite E; simpl; exact L.
Qed.

(** * Tokens of a tree *)

Fixpoint ctree_ind' (P : ctree -> Prop)
  (H : forall sq ch, Forall P ch -> P (CT sq ch)) (t : ctree) : P t :=
  match t with
  | CT sq ch => H sq ch ((fix go (l : list ctree) : Forall P l :=
                            match l with
                            | [] => Forall_nil P
                            | x :: r => Forall_cons x (ctree_ind' P H x) (go r)
                            end) ch)
  end.

Definition prop_tokens (kv : bytes * list bytes) : list token :=
  TokI (fst kv) :: map TokV (snd kv).

Definition node_tokens (m : pmap) : list token :=
  TokD ";"%char :: flat_map prop_tokens (sort_props m).

Fixpoint tree_tokens (t : ctree) : list token :=
  match t with
  | CT sq ch => [TokD "("%char] ++ flat_map node_tokens sq ++ flat_map tree_tokens ch ++ [TokD ")"%char]
  end.

Fixpoint tree_pieces (t : ctree) : list bytes :=
  match t with
  | CT sq ch => [["("%char]] ++ flat_map node_pieces sq ++ flat_map tree_pieces ch ++ [[")"%char]]
  end.

Lemma serialise_loop_pieces : forall f stack l,
  (fold_right (fun x n => (match x with None => 1 | Some t => 2 * ctree_size t end + n)%nat) O stack
    <= f)%nat ->
  serialise_loop f stack l =
  Ok (l ++ flat_map (fun x => match x with None => [[")"%char]] | Some t => tree_pieces t end) stack).
Proof.
  induction f as [|f IH]; intros stack l H.
  - destruct stack as [|[[sq ch]|] stack]; cbn [fold_right ctree_size] in H; try lia.
    simpl. rewrite app_nil_r. reflexivity.
  - destruct stack as [|[[sq ch]|] stack]; cbn [serialise_loop].
    + simpl. rewrite app_nil_r. reflexivity.
    + rewrite IH.
      * rewrite flat_map_app. cbn [flat_map tree_pieces].
        assert (flat_map (fun x => match x with None => [[")"%char]] | Some t => tree_pieces t end)
                         (map Some ch) = flat_map tree_pieces ch) as ->.
        { clear. induction ch as [|c ch IH]; simpl; auto. rewrite IH. reflexivity. }
        f_equal. rewrite <- !app_assoc. reflexivity.
      * cbn [fold_right ctree_size] in H. rewrite fold_right_app. cbn [fold_right].
        set (k := fold_right _ O stack) in *.
        assert (forall n, fold_right (fun x n => (match x with None => 1 | Some t => 2 * ctree_size t end + n)%nat)
                   n (map Some ch) = (2 * fold_right (fun x n => (ctree_size x + n)%nat) O ch + n)%nat) as ->.
        { clear. induction ch as [|c ch IH]; intros n; cbn [map fold_right]; [lia|].
          rewrite IH. lia. }
        lia.
    + rewrite IH.
      * cbn [flat_map]. rewrite <- app_assoc. reflexivity.
      * cbn [fold_right] in H. lia.
Qed.

Lemma serialise_pieces t :
  serialise_loop (2 * ctree_size t) [Some t] [] = Ok (tree_pieces t).
Proof.
  rewrite serialise_loop_pieces; [|cbn [fold_right]; lia].
  cbn [flat_map]. rewrite app_nil_r. reflexivity.
Qed.

Lemma serialise_layout t wrap :
  exists out, serialise_game_tree t wrap = Ok out /\ layout (tree_pieces t ++ [[char_lf]]) out.
Proof.
  unfold serialise_game_tree. rewrite serialise_pieces. cbn [bind].
  eexists. split; [reflexivity|]. destruct wrap; [apply block_format_layout|apply layout_concat].
Qed.

(** * Tokenising a layout *)

Lemma toks_delim w c d rest : ws w ->
  (c = ";"%char \/ c = "("%char \/ c = ")"%char) ->
  toks (w ++ c :: rest) d =
  (if ceqb c "("%char then pre [TokD c] (toks rest (d + 1))
   else if ceqb c ")"%char then
     (if d - 1 =? 0 then Ok ([TokD c], rest) else pre [TokD c] (toks rest (d - 1)))
   else pre [TokD c] (toks rest d)).
Proof.
  intros W H. rewrite toks_step, next_token_app by exact W.
  unfold next_token.
  assert (is_space c = false) as S by (destruct H as [->|[->| ->]]; reflexivity).
  rewrite skip_space_nonspace by exact S.
  assert (ceqb c char_lb = false) as -> by (destruct H as [->|[->| ->]]; reflexivity).
  assert (is_letter c = false) as -> by (destruct H as [->|[->| ->]]; reflexivity).
  assert (ceqb c ";"%char || ceqb c "("%char || ceqb c ")"%char = true) as ->
      by (destruct H as [->|[->| ->]]; reflexivity).
  unfold pre. destruct (ceqb c "("%char); [|destruct (ceqb c ")"%char)]; reflexivity.
Qed.

Lemma toks_values vs d rest : Forall good_value vs ->
  toks (flat_map (fun v => char_lb :: v ++ [char_rb]) vs ++ rest) d =
  pre (map TokV vs) (toks rest d).
Proof.
  induction 1 as [|v vs G F IH]; cbn [flat_map map app].
  - rewrite pre_nil. reflexivity.
  - rewrite toks_step. unfold next_token. cbn [app]. rewrite skip_space_nonspace by reflexivity.
    change (ceqb char_lb char_lb) with true. cbv iota.
    rewrite <- !app_assoc. cbn [app]. rewrite scan_value_good by exact G.
    cbv beta iota zeta. rewrite IH. destruct (toks rest d) as [[ts tl]|]; reflexivity.
Qed.

Lemma filter_upper k : Forall (fun c => is_upper c = true) k ->
  filter (fun x => negb (is_lower x)) k = k.
Proof.
  induction 1 as [|c k H F IH]; simpl; auto.
  pose proof (upper_not_lower c) as U. rewrite H in U. simpl in U. rewrite U, IH. reflexivity.
Qed.

Lemma good_ident_upper k : good_ident k -> Forall (fun c => is_upper c = true) k.
Proof.
  intros (_ & _ & F). eapply Forall_impl; [|exact F]. intros c H.
  unfold is_upper. apply andb_true_iff. rewrite !Z.leb_le. cbv beta in H. exact H.
Qed.

Lemma toks_prop w kv d rest : ws w ->
  good_ident (fst kv) -> snd kv <> [] -> Forall good_value (snd kv) ->
  toks (w ++ prop_piece kv ++ rest) d = pre (prop_tokens kv) (toks rest d).
Proof.
  intros W Gi Nv Gv. destruct kv as [k vs]. cbn [fst snd] in *.
  unfold prop_piece, prop_tokens. cbn [fst snd].
  rewrite toks_step, next_token_app by exact W. unfold next_token.
  pose proof (good_ident_upper k Gi) as U. destruct Gi as (Nk & Lk & _).
  destruct k as [|c k]; [congruence|]. inv U.
  pose proof (upper_letter c H1) as Lc.
  pose proof (letter_not_space c) as Sp. rewrite Lc in Sp. simpl in Sp. apply negb_true_iff in Sp.
  pose proof (letter_not_special c) as Sl. rewrite Lc in Sl. simpl in Sl. apply negb_true_iff in Sl.
  rewrite !orb_false_iff in Sl. destruct Sl as (((S1 & _) & _) & _).
  cbn [app]. rewrite skip_space_nonspace by exact Sp. rewrite S1, Lc.
  destruct vs as [|v vs]; [congruence|].
  change (c :: (k ++ flat_map (fun v0 => char_lb :: v0 ++ [char_rb]) (v :: vs)) ++ rest)
    with (((c :: k) ++ flat_map (fun v0 => char_lb :: v0 ++ [char_rb]) (v :: vs)) ++ rest).
  rewrite <- app_assoc.
  rewrite take_letters_upper; auto.
  - rewrite filter_upper by (constructor; auto).
    rewrite toks_values by exact Gv. destruct (toks rest d) as [[ts tl]|]; reflexivity.
  - constructor; auto. eapply Forall_impl; [|exact H2]. apply upper_letter.
  - reflexivity.
Qed.

Lemma insert_prop_In kv m x : In x (insert_prop kv m) <-> x = kv \/ In x m.
Proof.
  induction m as [|y m IH]; simpl; [intuition congruence|].
  destruct (key_ltb (fst y) (fst kv)); simpl; rewrite ?IH; intuition congruence.
Qed.

Lemma sort_props_In m x : In x (sort_props m) <-> In x m.
Proof.
  induction m as [|y m IH]; simpl; [tauto|]. rewrite insert_prop_In, IH. intuition congruence.
Qed.

Lemma insert_prop_NoDup kv m :
  NoDup (map fst m) -> ~ In (fst kv) (map fst m) -> NoDup (map fst (insert_prop kv m)).
Proof.
  induction m as [|y m IH]; simpl; intros ND NI.
  - constructor; auto.
  - inv ND. destruct (key_ltb (fst y) (fst kv)); simpl.
    + constructor; [|apply IH; tauto]. intro C. apply in_map_iff in C.
      destruct C as (z & Ez & Hz). apply insert_prop_In in Hz. destruct Hz as [->|Hz]; [apply NI; left; congruence|].
      apply H1. rewrite <- Ez. apply in_map. exact Hz.
    + constructor; [simpl; tauto|]. constructor; auto.
Qed.

Lemma sort_props_NoDup m : NoDup (map fst m) -> NoDup (map fst (sort_props m)).
Proof.
  induction m as [|y m IH]; simpl; intros ND; [constructor|]. inv ND.
  apply insert_prop_NoDup; auto. intro C. apply H1. apply in_map_iff in C.
  destruct C as (z & Ez & Hz). apply (proj1 (sort_props_In m z)) in Hz.
  rewrite <- Ez. apply in_map. exact Hz.
Qed.

Lemma lookup_In k v m : NoDup (map fst m) -> (lookup k m = Some v <-> In (k, v) m).
Proof.
  induction m as [|[k' v'] m IH]; simpl; intros ND; [split; [discriminate|tauto]|].
  inv ND. destruct (bytes_eqb_spec k k') as [->|N].
  - split; [intros E; inv E; auto|]. intros [E|H]; [congruence|].
    exfalso. apply H1. apply in_map_iff. exists (k', v). auto.
  - rewrite IH by auto. intuition congruence.
Qed.

Lemma sort_props_same m : NoDup (map fst m) -> same_node m (sort_props m).
Proof.
  intros ND k. pose proof (sort_props_NoDup m ND) as ND'.
  destruct (lookup k m) as [v|] eqn:E.
  - symmetry. apply lookup_In; auto. apply sort_props_In. apply lookup_In; auto.
  - destruct (lookup k (sort_props m)) as [v|] eqn:E'; auto.
    apply lookup_In in E'; auto. apply (proj1 (sort_props_In m (k, v))) in E'.
    apply (lookup_In k v m ND) in E'. congruence.
Qed.

Lemma good_node_sorted m : good_node m -> good_node (sort_props m).
Proof.
  intros [ND F]. split; [apply sort_props_NoDup; auto|].
  rewrite Forall_forall in *. intros x Hx. apply F. apply sort_props_In. exact Hx.
Qed.

Lemma toks_props : forall ps out d rest,
  Forall (fun kv => good_ident (fst kv) /\ snd kv <> [] /\ Forall good_value (snd kv)) ps ->
  layout (map prop_piece ps) out ->
  toks (out ++ rest) d = pre (flat_map prop_tokens ps) (toks rest d).
Proof.
  induction ps as [|kv ps IH]; intros out d rest F L; cbn [map flat_map] in *.
  - inv L. rewrite pre_nil. reflexivity.
  - inv L. pose proof (Forall_inv F) as (G1 & G2 & G3). apply Forall_inv_tail in F.
    rewrite <- !app_assoc. rewrite toks_prop by auto. rewrite IH by auto.
    apply pre_pre.
Qed.

Lemma toks_node m out d rest : good_node m ->
  layout (node_pieces m) out -> toks (out ++ rest) d = pre (node_tokens m) (toks rest d).
Proof.
  intros G L. unfold node_pieces in L. inv L. rewrite <- !app_assoc. cbn [app].
  rewrite toks_delim by auto. change (ceqb ";" "(") with false. change (ceqb ";" ")") with false.
  cbv iota. rewrite (toks_props (sort_props m)); auto.
  - apply pre_pre.
  - apply good_node_sorted in G. apply G.
Qed.

Lemma toks_sequence sq : forall out d rest, Forall good_node sq ->
  layout (flat_map node_pieces sq) out ->
  toks (out ++ rest) d = pre (flat_map node_tokens sq) (toks rest d).
Proof.
  induction sq as [|m sq IH]; intros out d rest F L; cbn [flat_map] in *.
  - inv L. rewrite pre_nil. reflexivity.
  - inv F. apply layout_split in L. destruct L as (a & b & -> & La & Lb).
    rewrite <- app_assoc. rewrite (toks_node m) by auto. rewrite IH by auto. apply pre_pre.
Qed.

Lemma toks_tree t : forall out d rest, good_tree t -> 1 <= d ->
  layout (tree_pieces t) out -> toks (out ++ rest) d = pre (tree_tokens t) (toks rest d).
Proof.
  induction t as [sq ch IH] using ctree_ind'. intros out d rest G Hd L.
  inv G. cbn [tree_pieces app] in L. inv L. rewrite <- !app_assoc. cbn [app].
  rewrite toks_delim by auto. change (ceqb "(" "(") with true. cbv iota.
  apply layout_split in H6. destruct H6 as (a & b & -> & La & Lb).
  apply layout_split in Lb. destruct Lb as (b1 & b2 & -> & Lb1 & Lb2).
  rewrite <- !app_assoc. rewrite (toks_sequence sq) by auto.
  assert (forall d rest, 1 <= d -> toks (b1 ++ rest) d = pre (flat_map tree_tokens ch) (toks rest d)) as C.
  { clear - IH H3 Lb1. revert b1 Lb1. induction IH as [|c ch Hc Hch IHch]; intros b1 Lb1 d rest Hd;
      cbn [flat_map] in *.
    - inv Lb1. rewrite pre_nil. reflexivity.
    - inv H3. apply layout_split in Lb1. destruct Lb1 as (x & y & -> & Lx & Ly).
      rewrite <- app_assoc. rewrite (Hc x) by auto. rewrite IHch by auto. apply pre_pre. }
  rewrite C by lia. apply layout_one in Lb2; destruct Lb2 as (w2 & W2 & ->). rewrite <- !app_assoc. cbn [app].
  rewrite toks_delim by auto. change (ceqb ")" "(") with false. change (ceqb ")" ")") with true.
  cbv iota. destruct (Z.eqb_spec (d + 1 - 1) 0); [lia|].
  replace (d + 1 - 1) with d by lia.
  rewrite !pre_pre. cbn [tree_tokens]. f_equal.
  rewrite <- !app_assoc. reflexivity.
Qed.

(** At depth 0 the tokeniser stops right after the tree. *)
Lemma toks_tree_top t out rest : good_tree t ->
  layout (tree_pieces t) out -> toks (out ++ rest) 0 = Ok (tree_tokens t, rest).
Proof.
  destruct t as [sq ch]. intros G L.
  inv G. cbn [tree_pieces app] in L. inv L. rewrite <- !app_assoc. cbn [app].
  rewrite toks_delim by auto. change (ceqb "(" "(") with true. cbv iota.
  apply layout_split in H6. destruct H6 as (a & b & -> & La & Lb).
  apply layout_split in Lb. destruct Lb as (b1 & b2 & -> & Lb1 & Lb2).
  rewrite <- !app_assoc. rewrite (toks_sequence sq) by auto.
  assert (forall d rest, 1 <= d -> toks (b1 ++ rest) d = pre (flat_map tree_tokens ch) (toks rest d)) as C.
  { clear - H3 Lb1. revert b1 Lb1. induction ch as [|c ch IHch]; intros b1 Lb1 d rest Hd;
      cbn [flat_map] in *.
    - inv Lb1. rewrite pre_nil. reflexivity.
    - inv H3. apply layout_split in Lb1. destruct Lb1 as (x & y & -> & Lx & Ly).
      rewrite <- app_assoc. rewrite (toks_tree c x) by auto. rewrite IHch by auto. apply pre_pre. }
  rewrite C by lia. apply layout_one in Lb2; destruct Lb2 as (w2 & W2 & ->). rewrite <- !app_assoc. cbn [app].
  rewrite toks_delim by auto. change (ceqb ")" "(") with false. change (ceqb ")" ")") with true.
  cbv iota. change (0 + 1 - 1 =? 0) with true. cbv iota.
  rewrite !pre_pre. cbn [pre bind tree_tokens]. rewrite <- !app_assoc. reflexivity.
Qed.

(** * Finding the start *)

Lemma find_start_skip j s : no_paren j -> find_start (j ++ s) = find_start s.
Proof.
  induction 1 as [|c j H F IH]; simpl; auto.
  destruct (ceqb_spec c "("%char); [contradiction|]. exact IH.
Qed.

Lemma ws_no_paren w : ws w -> no_paren w.
Proof.
  intros H. eapply Forall_impl; [|exact H]. intros c S ->. discriminate.
Qed.

Lemma find_start_tree t out rest : good_tree t -> layout (tree_pieces t) out ->
  exists w out', out = w ++ out' /\ ws w /\ find_start (out ++ rest) = Some (out' ++ rest).
Proof.
  intros G L. destruct t as [sq ch]. inv G. cbn [tree_pieces app] in L. inv L.
  destruct sq as [|m sq]; [congruence|]. cbn [flat_map node_pieces app] in H6. inv H6.
  exists w, (["("%char] ++ w0 ++ [";"%char] ++ out).
  split; [reflexivity|]. split; auto.
  rewrite <- app_assoc. rewrite find_start_skip by (apply ws_no_paren; auto).
  cbn [app find_start]. rewrite <- app_assoc. rewrite skip_space_app by auto.
  cbn [app]. rewrite skip_space_nonspace by reflexivity. reflexivity.
Qed.

Lemma tokenise_tree t out junk rest : good_tree t -> no_paren junk ->
  layout (tree_pieces t) out ->
  tokenise (junk ++ out ++ rest) = Ok (tree_tokens t, rest).
Proof.
  intros G J L. unfold tokenise. rewrite find_start_skip by exact J.
  destruct (find_start_tree t out rest G L) as (w & out' & -> & W & ->).
  fold (toks (out' ++ rest) 0).
  rewrite <- (toks_tree_top t (w ++ out') rest G L).
  (* tokenising skips the leading white space *)
  rewrite (toks_step (out' ++ rest)), (toks_step ((w ++ out') ++ rest)).
  rewrite <- (app_assoc w out'), (next_token_app w) by exact W.
  destruct (next_token (out' ++ rest)) as [[t' r']|] eqn:E; auto.
  exfalso. pose proof (toks_tree_top t (w ++ out') rest G L) as T.
  rewrite toks_step, <- (app_assoc w out'), (next_token_app w), E in T by exact W. inv T.
  destruct t; discriminate.
Qed.
