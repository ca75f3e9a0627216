From Verif Require Import Base Bytes PyStr BoardSpec BoardModel BoardProofs SgfGrammarSpec SgfGrammarModel
  SgfGrammarProofs SgfTextProofs CommonModel CommonProofs DiagramProofs SgfPropsModel SgfPropsSpec.

(** * Points *)

Lemma go_letter_ok i : 0 <= i < 25 -> exists c, go_letter i = Ok c /\ ord c = 97 + i.
Proof.
  intros H. assert (forallb (fun k => match go_letter k with Ok c => ord c =? 97 + k | Err _ => false end)
    (map Z.of_nat (seq 0 25)) = true) as A by (vm_compute; reflexivity).
  rewrite forallb_forall in A.
  assert (In i (map Z.of_nat (seq 0 25))) as I.
  { replace i with (Z.of_nat (Z.to_nat i)) by lia. apply in_map, in_seq. lia. }
  apply A in I. destruct (go_letter i) as [c|]; [|discriminate]. exists c. split; auto. lia.
Qed.

Lemma go_letter_25 : go_letter 25 = Err IndexError.
Proof. reflexivity. Qed.

Lemma names_point_not_pass size s p : names_point size s p -> ~ names_pass size s.
Proof.
  intros (a & b & -> & R & C & A & B) [E|[E L]]; [discriminate|].
  injection E as -> ->. change (ord "t") with 116 in *. change (ord "a") with 97 in *. lia.
Qed.

Lemma names_point_fun size s p q : names_point size s p -> names_point size s q -> p = q.
Proof.
  intros (a & b & -> & R & C & A & B) (a' & b' & E & R' & C' & A' & B').
  injection E as <- <-. destruct p, q; cbn [fst snd] in *. f_equal; lia.
Qed.

Lemma two_letters a b size : 
  match (if negb (((0 <=? ord a - 97) && (ord a - 97 <? size)) &&
                  ((0 <=? size - ord b + 96) && (size - ord b + 96 <? size)))
         then Err ValueError else Ok (Some (size - ord b + 96, ord a - 97))) with
  | Ok None => False
  | Ok (Some p) => names_point size [a; b] p
  | Err e => e = ValueError /\ forall p, ~ names_point size [a; b] p
  end.
Proof.
  destruct ((0 <=? ord a - 97) && (ord a - 97 <? size) &&
    ((0 <=? size - ord b + 96) && (size - ord b + 96 <? size))) eqn:E; cbn [negb].
  - exists a, b. cbn [fst snd]. change (ord "a") with 97. repeat split; lia.
  - split; auto. intros p (a' & b' & X & R & C & A & B). injection X as <- <-.
    change (ord "a") with 97 in *. lia.
Qed.

Lemma interpret_go_point_spec s size :
  match interpret_go_point s size with
  | Ok None => names_pass size s
  | Ok (Some p) => names_point size s p
  | Err e => e = ValueError /\ ~ names_pass size s /\ forall p, ~ names_point size s p
  end.
Proof.
  unfold interpret_go_point.
  destruct (bytes_eqb s [] || bytes_eqb s (str "tt") && (size <=? 19)) eqn:E.
  - apply orb_true_iff in E. destruct E as [E|E].
    + left. destruct (bytes_eqb_spec s []); auto; discriminate.
    + apply andb_true_iff in E. destruct E as [E1 E2]. right.
      destruct (bytes_eqb_spec s (str "tt")); [|discriminate]. split; auto. lia.
  - apply orb_false_iff in E. destruct E as [E1 E2].
    assert (~ names_pass size s) as NP.
    { intros [->|[-> L]]; [discriminate|]. rewrite bytes_eqb_refl in E2. simpl in E2. lia. }
    destruct s as [|a [|b [|c s]]]; try discriminate.
    1,3: split; auto; split; auto; intros p (a' & b' & X & _); discriminate.
    pose proof (two_letters a b size) as T. cbv zeta.
    match type of T with context [negb ?t] => destruct t end; cbn [negb] in *; tauto.
Qed.

Lemma interpret_names size s p : names_point size s p -> interpret_go_point s size = Ok (Some p).
Proof.
  intros H. pose proof (interpret_go_point_spec s size) as S.
  destruct (interpret_go_point s size) as [[q|]|e].
  - rewrite (names_point_fun _ _ _ _ S H). reflexivity.
  - exfalso. eapply names_point_not_pass; eauto.
  - exfalso. destruct S as (_ & _ & S). eapply S; eauto.
Qed.

Lemma interpret_pass size s : names_pass size s -> interpret_go_point s size = Ok None.
Proof.
  intros H. pose proof (interpret_go_point_spec s size) as S.
  destruct (interpret_go_point s size) as [[q|]|e]; auto.
  - exfalso. eapply names_point_not_pass; eauto.
  - exfalso. tauto.
Qed.

Lemma serialise_point_names size p : 1 <= size <= 26 -> 0 <= fst p < size -> 0 <= snd p < size ->
  (size = 26 -> fst p <> 0 /\ snd p <> 25) ->
  exists s, serialise_go_point (Some p) size = Ok s /\ names_point size s p.
Proof.
  intros Hs R C E. destruct p as [row col]. simpl in *. unfold serialise_go_point.
  destruct ((1 <=? size) && (size <=? 26)) eqn:X; [|lia]. cbn [negb].
  destruct ((0 <=? col) && (col <? size) && ((0 <=? row) && (row <? size))) eqn:Y; [|lia]. cbn [negb].
  destruct (go_letter_ok col ltac:(lia)) as (a & -> & A).
  destruct (go_letter_ok (size - row - 1) ltac:(lia)) as (b & -> & B). cbn [bind].
  exists [a; b]. split; auto. exists a, b. cbn [fst snd]. change (ord "a") with 97. repeat split; lia.
Qed.

Lemma C16_round_proof size m : 1 <= size <= 25 ->
  (forall p, m = Some p -> 0 <= fst p < size /\ 0 <= snd p < size) ->
  exists s, serialise_go_point m size = Ok s /\ interpret_go_point s size = Ok m.
Proof.
  intros Hs Hm. destruct m as [p|].
  - destruct (Hm p eq_refl) as [R C].
    destruct (serialise_point_names size p) as (s & E & N); auto; try lia.
    exists s. split; auto. apply interpret_names; auto.
  - unfold serialise_go_point. destruct ((1 <=? size) && (size <=? 26)) eqn:X; [|lia]. cbn [negb].
    eexists. split; [reflexivity|]. apply interpret_pass. unfold names_pass.
    destruct (Z.leb_spec size 19); auto.
Qed.

Lemma C16_26_proof m :
  (forall p, m = Some p -> 0 <= fst p < 26 /\ 0 <= snd p < 26) ->
  match m with
  | Some p => if (fst p =? 0) || (snd p =? 25) then serialise_go_point m 26 = Err IndexError
              else exists s, serialise_go_point m 26 = Ok s /\ interpret_go_point s 26 = Ok m
  | None => exists s, serialise_go_point m 26 = Ok s /\ interpret_go_point s 26 = Ok m
  end.
Proof.
  intros Hm. destruct m as [[row col]|].
  - destruct (Hm _ eq_refl) as [R C]. simpl in *.
    destruct ((row =? 0) || (col =? 25)) eqn:E.
    + unfold serialise_go_point. cbn [negb Z.leb Z.compare andb]. simpl (1 <=? 26). simpl (26 <=? 26). cbn [negb andb].
      destruct ((0 <=? col) && (col <? 26) && ((0 <=? row) && (row <? 26))) eqn:Y; [|lia]. cbn [negb].
      destruct (Z.eqb_spec col 25) as [->|Nc]; [reflexivity|].
      assert (row = 0) as -> by lia.
      destruct (go_letter_ok col ltac:(lia)) as (a & -> & A). reflexivity.
    + destruct (serialise_point_names 26 (row, col)) as (s & X & N); simpl; auto; try lia.
      exists s. split; auto. apply interpret_names; auto.
  - exists []. split; reflexivity.
Qed.

(** Everything that isn't a valid move at a supported size is refused. *)
Lemma C16_refuse_proof size m : 
  (~ (1 <= size <= 26) \/ exists p, m = Some p /\ ~ (0 <= fst p < size /\ 0 <= snd p < size)) ->
  serialise_go_point m size = Err ValueError.
Proof.
  intros H. unfold serialise_go_point.
  destruct ((1 <=? size) && (size <=? 26)) eqn:X; [|reflexivity]. cbn [negb].
  destruct H as [H|([row col] & -> & H)]; [lia|]. simpl in H.
  destruct ((0 <=? col) && (col <? size) && ((0 <=? row) && (row <? size))) eqn:Y; [lia|]. reflexivity.
Qed.

(** * Point lists *)

Lemma interpret_point_ok s x p : interpret_point s x = Ok p <-> names_point (c_size x) s p.
Proof.
  unfold interpret_point. pose proof (interpret_go_point_spec s (c_size x)) as S. split.
  - destruct (interpret_go_point s (c_size x)) as [[q|]|e]; cbn [bind]; try discriminate.
    intros E. injection E as ->. auto.
  - intros N. rewrite (interpret_names _ _ _ N). reflexivity.
Qed.

Lemma interpret_point_err s x e : interpret_point s x = Err e -> e = ValueError.
Proof.
  unfold interpret_point. pose proof (interpret_go_point_spec s (c_size x)) as S.
  destruct (interpret_go_point s (c_size x)) as [[q|]|e']; cbn [bind]; try discriminate.
  - congruence.
  - destruct S as [-> _]. congruence.
Qed.

Lemma partition_none s a : partition_colon s = (a, None) -> a = s /\ ~ In ":"%char s.
Proof.
  revert a. induction s as [|c s IH]; intros a; simpl.
  - intros E. injection E as <-. auto.
  - destruct (ceqb_spec c char_colon) as [->|N]; [discriminate|].
    destruct (partition_colon s) as [a' b']. intros E. injection E as <- ->.
    destruct (IH a' eq_refl) as [-> H]. split; auto. intros [X|X]; auto.
Qed.

Lemma partition_some s a b : partition_colon s = (a, Some b) -> s = a ++ ":"%char :: b /\ ~ In ":"%char a.
Proof.
  revert a. induction s as [|c s IH]; intros a; simpl; [discriminate|].
  destruct (ceqb_spec c char_colon) as [->|N].
  - intros E. injection E as <- <-. auto.
  - destruct (partition_colon s) as [a' b']. intros E. injection E as <- ->.
    destruct (IH a' eq_refl) as [-> H]. split; auto. intros [X|X]; auto.
Qed.

Lemma partition_app a b : ~ In ":"%char a -> partition_colon (a ++ ":"%char :: b) = (a, Some b).
Proof.
  induction a as [|c a IH]; intros H; simpl; auto.
  destruct (ceqb_spec c char_colon) as [->|N]; [exfalso; apply H; left; reflexivity|].
  rewrite IH; auto. intros X. apply H. right. auto.
Qed.

Lemma partition_id a : ~ In ":"%char a -> partition_colon a = (a, None).
Proof.
  induction a as [|c a IH]; intros H; simpl; auto.
  destruct (ceqb_spec c char_colon) as [->|N]; [exfalso; apply H; left; reflexivity|].
  rewrite IH; auto. intros X. apply H. right. auto.
Qed.

(** Points name no colon. *)
Lemma names_no_colon size s p : names_point size s p -> ~ In ":"%char s.
Proof.
  intros (a & b & -> & R & C & A & B) [X|[X|[]]]; subst;
    change (ord ":") with 58 in *; change (ord "a") with 97 in *; lia.
Qed.

Lemma zrange_incl_In a b i : In i (zrange_incl a b) <-> a <= i <= b.
Proof.
  unfold zrange_incl, range. rewrite in_map_iff. split.
  - intros (k & <- & H). apply in_map_iff in H. destruct H as (n & <- & H). apply in_seq in H. lia.
  - intros H. exists (i - a). split; [lia|]. apply in_map_iff. exists (Z.to_nat (i - a)).
    split; [lia|]. apply in_seq. lia.
Qed.

Lemma fold_set_add_In p l : forall acc,
  In p (fold_left (fun acc p => set_add p acc) l acc) <-> In p l \/ In p acc.
Proof.
  induction l as [|q l IH]; intros acc; simpl; [tauto|].
  rewrite IH, set_add_In. intuition.
Qed.

Lemma fold_set_add_NoDup l : forall acc, NoDup acc ->
  NoDup (fold_left (fun acc p => set_add p acc) l acc).
Proof. induction l as [|q l IH]; intros acc H; simpl; auto. apply IH, set_add_NoDup, H. Qed.

Definition all_values (size : Z) (values : list bytes) (P : list (point -> Prop)) : Prop :=
  Forall2 (value_points size) values P.

Lemma value_points_on_board size v P : value_points size v P -> forall q, P q -> on_board size q.
Proof.
  intros [v' p (a & b & -> & R & C & _)|v' a b top lft bottom rgt E N1 N2 L1 L2] q H.
  - subst. split; lia.
  - destruct N1 as (? & ? & _ & R1 & C1 & _), N2 as (? & ? & _ & R2 & C2 & _). simpl in *.
    unfold on_board. lia.
Qed.

Lemma point_list_loop_spec x : forall values acc, NoDup acc ->
  match point_list_loop values x acc with
  | Ok l => NoDup l /\ exists Ps, Forall2 (value_points (c_size x)) values Ps /\
              forall q, In q l <-> In q acc \/ Exists (fun P => P q) Ps
  | Err e => e = ValueError /\ exists v, In v values /\ forall P, ~ value_points (c_size x) v P
  end.
Proof.
  induction values as [|s values IH]; intros acc ND; cbn [point_list_loop].
  - split; auto. exists []. split; [constructor|]. intros q. rewrite Exists_nil. tauto.
  - destruct (partition_colon s) as [p1 [p2|]] eqn:EP.
    + apply partition_some in EP. destruct EP as [-> NC].
      assert (forall P, value_points (c_size x) (p1 ++ ":"%char :: p2) P ->
        exists top lft bottom rgt, names_point (c_size x) p1 (top, lft) /\
          names_point (c_size x) p2 (bottom, rgt) /\ bottom <= top /\ lft <= rgt) as INV.
      { intros P V. inversion V as [v p N|v a b t l b' r E N1 N2 L1 L2]; subst.
        - exfalso. apply (names_no_colon _ _ _ N). apply in_app_iff. right. left. reflexivity.
        - exists t, l, b', r.
          assert (partition_colon (p1 ++ ":"%char :: p2) = partition_colon (a ++ ":"%char :: b)) as EE by (f_equal; exact E).
          rewrite (partition_app p1 p2 NC), (partition_app a b (names_no_colon _ _ _ N1)) in EE.
          injection EE as -> ->. auto. }
      destruct (interpret_point p1 x) as [[top lft]|e] eqn:E1; cbn [bind].
      2:{ pose proof (interpret_point_err _ _ _ E1) as ->. split; auto.
          eexists. split; [left; reflexivity|]. intros P V. destruct (INV P V) as (t & l & b & r & N1 & _).
          apply interpret_point_ok in N1. congruence. }
      destruct (interpret_point p2 x) as [[bottom rgt]|e] eqn:E2; cbn [bind].
      2:{ pose proof (interpret_point_err _ _ _ E2) as ->. split; auto.
          eexists. split; [left; reflexivity|]. intros P V. destruct (INV P V) as (t & l & b & r & _ & N2 & _).
          apply interpret_point_ok in N2. congruence. }
      destruct ((bottom <=? top) && (lft <=? rgt)) eqn:EL; cbn [negb].
      2:{ split; auto. eexists. split; [left; reflexivity|]. intros P V.
          destruct (INV P V) as (t & l & b & r & N1 & N2 & L1 & L2).
          apply interpret_point_ok in N1, N2. rewrite E1 in N1. rewrite E2 in N2.
          injection N1 as -> ->. injection N2 as -> ->. lia. }
      match goal with |- context [point_list_loop values x ?a] => set (acc' := a) end.
      specialize (IH acc' (fold_set_add_NoDup _ _ ND)).
      destruct (point_list_loop values x acc') as [l|e].
      * destruct IH as (NDl & Ps & F & H). split; auto.
        exists ((fun q => bottom <= fst q <= top /\ lft <= snd q <= rgt) :: Ps). split.
        -- constructor; auto. eapply vp_rect with (a := p1) (b := p2); auto; try lia;
             apply interpret_point_ok; auto.
        -- intros q. rewrite H, Exists_cons. subst acc'. rewrite fold_set_add_In.
           assert (In q (flat_map (fun row => map (fun col => (row, col)) (zrange_incl lft rgt))
                          (zrange_incl bottom top))
                   <-> (bottom <= fst q <= top /\ lft <= snd q <= rgt)) as ->.
           { rewrite in_flat_map. split.
             - intros (r & Hr & Hc). apply in_map_iff in Hc. destruct Hc as (c & <- & Hc).
               apply zrange_incl_In in Hr, Hc. simpl. lia.
             - intros [Hr Hc]. exists (fst q). split; [apply zrange_incl_In; lia|].
               apply in_map_iff. exists (snd q). split; [destruct q; auto|]. apply zrange_incl_In. lia. }
           tauto.
      * destruct IH as (-> & v & I & V). split; auto. exists v. split; auto. right. auto.
    + apply partition_none in EP. destruct EP as [-> NC].
      destruct (interpret_point s x) as [p|e] eqn:E1; cbn [bind].
      2:{ pose proof (interpret_point_err _ _ _ E1) as ->. split; auto.
          exists s. split; [left; reflexivity|]. intros P V. inversion V as [v p N|v a b t l b' r E N1 N2 L1 L2]; subst.
          - apply interpret_point_ok in N. congruence.
          - apply NC. apply in_app_iff. right. left. reflexivity. }
      specialize (IH (set_add p acc) (set_add_NoDup _ _ ND)).
      destruct (point_list_loop values x (set_add p acc)) as [l|e].
      * destruct IH as (NDl & Ps & F & H). split; auto.
        exists ((fun q => q = p) :: Ps). split.
        -- constructor; auto. apply vp_point. apply interpret_point_ok. auto.
        -- intros q. rewrite H, Exists_cons, set_add_In. tauto.
      * destruct IH as (-> & v & I & V). split; auto. exists v. split; auto. right. auto.
Qed.

Lemma C17_interpret_proof values x :
  match interpret_point_list values x with
  | Ok l => NoDup l /\ (exists Ps, Forall2 (value_points (c_size x)) values Ps /\
              forall q, In q l <-> Exists (fun P => P q) Ps) /\
            (forall q, In q l -> on_board (c_size x) q)
  | Err e => e = ValueError /\ exists v, In v values /\ forall P, ~ value_points (c_size x) v P
  end.
Proof.
  unfold interpret_point_list. pose proof (point_list_loop_spec x values [] ltac:(constructor)) as H.
  destruct (point_list_loop values x []) as [l|e]; auto.
  destruct H as (ND & Ps & F & H). split; auto.
  assert (forall q, In q l <-> Exists (fun P => P q) Ps) as H' by (intros q; rewrite H; simpl; tauto).
  split; [exists Ps; auto|].
  intros q I. apply H' in I. apply Exists_exists in I. destruct I as (P & IP & Pq).
  clear H H'. induction F as [|v P' values Ps V F IH]; [contradiction|].
  destruct IP as [->|IP]; eauto using value_points_on_board.
Qed.

Lemma insert_bytes_In a s l : In a (insert_bytes s l) <-> a = s \/ In a l.
Proof.
  induction l as [|t l IH]; simpl; [intuition|].
  destruct (bytes_ltb t s); simpl; [rewrite IH|]; intuition.
Qed.

Lemma sort_bytes_In a l : In a (sort_bytes l) <-> In a l.
Proof. induction l as [|s l IH]; simpl; [tauto|]. rewrite insert_bytes_In, IH. intuition. Qed.

Lemma sort_bytes_nil l : sort_bytes l = [] -> l = [].
Proof.
  destruct l as [|s l]; auto. simpl. intros E.
  assert (In s (insert_bytes s (sort_bytes l))) as I by (apply insert_bytes_In; auto).
  rewrite E in I. contradiction.
Qed.

(** Sorted lists of byte strings. *)
Lemma bytes_ltb_trans a b c : bytes_ltb a b = true -> bytes_ltb b c = true -> bytes_ltb a c = true.
Proof.
  revert b c. induction a as [|x a IH]; intros [|y b] [|z c]; simpl; try discriminate; auto.
  destruct (Z.ltb_spec (ord x) (ord y)), (Z.ltb_spec (ord y) (ord z)), (Z.ltb_spec (ord x) (ord z)); auto; try lia;
  destruct (Z.ltb_spec (ord y) (ord x)), (Z.ltb_spec (ord z) (ord y)), (Z.ltb_spec (ord z) (ord x)); auto; try lia; try discriminate.
  apply IH.
Qed.

Lemma bytes_ltb_total a b : bytes_ltb a b = false -> bytes_ltb b a = true \/ a = b.
Proof.
  revert b. induction a as [|x a IH]; intros [|y b]; simpl; auto; try discriminate.
  destruct (Z.ltb_spec (ord x) (ord y)); [discriminate|].
  destruct (Z.ltb_spec (ord y) (ord x)); auto.
  intros E. destruct (IH _ E) as [H1| ->]; auto. right. f_equal. apply ord_inj. lia.
Qed.

Lemma bytes_ltb_irrefl a : bytes_ltb a a = false.
Proof. induction a as [|x a IH]; simpl; auto. rewrite Z.ltb_irrefl. auto. Qed.
