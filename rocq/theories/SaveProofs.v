(** Proofs about saving a game (C63): options, and the property maps that are built. *)
From Verif Require Import Base Bytes PyStr Dict BoardModel BoardSpec BoardProofs BoardMainProofs CommonModel SgfGrammarModel SgfGrammarSpec
  SgfTreeConvModel SgfGrammarProofs SgfTextProofs SgfPropsModel SgfPropsSpec SgfValueSpec SgfValueProofs SgfTypeErrorProofs
  SgfTreeModel SgfTreeSpec SgfTreeProofs SgfNodeProofs SgfGameProofs SgfMovesModel SgfMovesSpec SgfMovesProofs GameplayModel GameSgfModel GameSgfSpec
  SgfChainProofs GameSgfProofs GameSgfDocProofs GameSgfMainProofs GameSgfReadProofs GtpModel GtpStateModel SaveModel SaveSpec.

(** ** Options *)

Definition doubled (v : bytes) : bytes := flat_map (fun c => if ceqb c char_bs then [char_bs; char_bs] else [c]) v.

Lemma pair_skip a b r x t : ceqb x a = false -> replace_pair a b r (x :: t) = x :: replace_pair a b r t.
Proof. intros H. destruct t as [|y t]; cbn [replace_pair]; [reflexivity|]. rewrite H. reflexivity. Qed.

Lemma pair_skip2 a b r x y t : ceqb y b = false -> replace_pair a b r (x :: y :: t) = x :: replace_pair a b r (y :: t).
Proof. intros H. cbn [replace_pair]. rewrite H, andb_false_r. reflexivity. Qed.

Lemma codable_tail c v : codable (c :: v) -> codable v.
Proof. intros H a b E. apply (H (c :: a) b). rewrite E. reflexivity. Qed.

Lemma coded_head v : match coded v with x :: _ => ceqb x "_"%char = match v with c :: _ => ceqb c "_"%char | [] => false end | [] => v = [] end.
Proof.
  destruct v as [|c v]; [reflexivity|]. cbn [coded]. destruct (ceqb_spec c "\"%char) as [->|]; [reflexivity|].
  destruct (ceqb_spec c " "%char) as [->|]; reflexivity.
Qed.

Lemma uncode1 v : codable v -> replace_pair char_bs "_"%char [char_sp] (coded v) = doubled v.
Proof.
  induction v as [|c v IH]; [reflexivity|]. intros H. pose proof (IH (codable_tail _ _ H)) as IHv. cbn [coded doubled flat_map].
  fold (doubled v). change char_bs with "\"%char in *. destruct (ceqb_spec c "\"%char) as [->|N1].
  - change (str "\\" ++ coded v) with ("\"%char :: "\"%char :: coded v). rewrite pair_skip2 by reflexivity.
    pose proof (coded_head v) as Hd. destruct (coded v) as [|x t] eqn:E.
    + subst v. reflexivity.
    + rewrite pair_skip2.
      * rewrite IHv. reflexivity.
      * destruct v as [|d v]; [exact Hd|]. rewrite Hd. destruct (ceqb_spec d "_"%char) as [->|]; [|reflexivity].
        exfalso. apply (H [] v). reflexivity.
  - destruct (ceqb_spec c " "%char) as [->|N2].
    + change (str "\_" ++ coded v) with ("\"%char :: "_"%char :: coded v). cbn [replace_pair].
      change (ceqb "\"%char "\"%char && ceqb "_"%char "_"%char) with true. cbn [app]. change char_sp with " "%char in *. rewrite IHv. reflexivity.
    + cbn [app]. rewrite pair_skip; [rewrite IHv; reflexivity|]. destruct (ceqb_spec c "\"%char); [contradiction|reflexivity].
Qed.

Lemma uncode2 v : replace_pair char_bs char_bs [char_bs] (doubled v) = v.
Proof.
  induction v as [|c v IH]; [reflexivity|]. unfold doubled in *. cbn [flat_map]. destruct (ceqb_spec c char_bs) as [->|N].
  - cbn [app replace_pair]. change (ceqb char_bs char_bs && ceqb char_bs char_bs) with true. cbn [app]. f_equal. exact IH.
  - cbn [app]. rewrite pair_skip; [rewrite IH; reflexivity|]. destruct (ceqb_spec c char_bs); [contradiction|reflexivity].
Qed.

Lemma split_name name v : Forall (fun c => is_letter c = true) name ->
  split_equals (name ++ "="%char :: v) = Some (name, v).
Proof.
  induction name as [|c name IH]; intros F; [reflexivity|]. cbn [app split_equals].
  inversion F as [|? ? A B]. subst. destruct (ceqb_spec c "="%char) as [->|]; [discriminate A|]. rewrite IH by exact B. reflexivity.
Qed.

Lemma option_read arg k v : option_arg arg (k, v) -> read_option arg = Some (k, v).
Proof.
  intros (name & -> & L & F & -> & C). unfold read_option. change (str "=" ++ coded v) with ("="%char :: coded v).
  rewrite split_name by exact F.
  assert (is_alpha name = true) as ->.
  { destruct name as [|c name]; [simpl in L; lia|]. unfold is_alpha. rewrite forallb_forall. rewrite Forall_forall in F. exact F. }
  rewrite (uncode1 _ C), uncode2. reflexivity.
Qed.

Lemma upper_letter c : is_letter c = true -> is_upper (upper_char c) = true.
Proof.
  unfold is_letter, upper_char. destruct (is_lower c) eqn:L; intros H.
  - unfold is_upper, is_lower in *. rewrite ord_chr; [|pose proof (ord_range c); lia]. lia.
  - rewrite orb_false_r in H. exact H.
Qed.

Lemma option_name arg k v : option_arg arg (k, v) -> is_valid_property_identifier k = true.
Proof.
  intros (name & _ & L & F & -> & _). unfold is_valid_property_identifier. rewrite map_length.
  assert (forallb is_upper (map upper_char name) = true) as ->.
  { rewrite forallb_forall. intros c I. apply in_map_iff in I as (d & <- & I). rewrite Forall_forall in F. apply upper_letter. auto. }
  cbn [andb]. destruct (Nat.leb_spec 1 (List.length name)); [|lia]. cbn [andb]. apply Nat.leb_le. lia.
Qed.
