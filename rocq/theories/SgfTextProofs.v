(** Proofs about the SGF grammar model: line wrapping, text escaping, compose
    (C12 - C14). *)
From Verif Require Import Base Bytes SgfGrammarModel SgfGrammarSpec SgfGrammarProofs.

(** * C12: block_format *)

Lemma line_length_app g h : line_length (g ++ h) = line_length g + line_length h.
Proof. unfold line_length. rewrite concat_app, app_length. lia. Qed.

Lemma line_length_one s : line_length [s] = Z.of_nat (List.length s).
Proof. unfold line_length. simpl. rewrite app_nil_r. reflexivity. Qed.

Lemma bn_extend width gs g s : breaks_needed width (gs ++ [g]) -> (g = [] -> gs = []) ->
  breaks_needed width (gs ++ [g ++ s]).
Proof.
  intros B N. induction gs as [|h gs IH]; simpl in *; [constructor|].
  destruct gs as [|h2 gs]; simpl in *.
  - inv B. simpl. constructor; auto; constructor.
  - inv B. constructor; auto. apply IH; auto. intros ->. specialize (N eq_refl). discriminate.
Qed.

Lemma bn_new width gs g s : breaks_needed width (gs ++ [g]) ->
  line_length g + Z.of_nat (List.length s) > width ->
  breaks_needed width ((gs ++ [g]) ++ [[s]]).
Proof.
  intros B L. induction gs as [|h gs IH]; simpl in *.
  - constructor; auto. constructor.
  - destruct gs as [|h2 gs]; simpl in *.
    + inv B. constructor; auto.
    + inv B. constructor; auto.
Qed.

Lemma filter_nonempty_nil g : List.concat g = [] ->
  filter (fun p : bytes => negb (bytes_eqb p [])) g = [].
Proof.
  induction g as [|p g IH]; simpl; auto. intros E. apply app_eq_nil in E. destruct E as [-> E].
  simpl. auto.
Qed.

Lemma fits_merge width h g : fits width h -> List.concat g = [] -> fits width (h ++ g).
Proof.
  intros F E. unfold fits in *. rewrite line_length_app. unfold line_length at 2. rewrite E.
  rewrite filter_app, (filter_nonempty_nil g E), app_nil_r. simpl. rewrite Z.add_0_r. exact F.
Qed.

Lemma block_groups width : forall pieces gs g,
  Forall (fits width) (gs ++ [g]) -> breaks_needed width (gs ++ [g]) -> (g = [] -> gs = []) ->
  exists groups, wrapped width (List.concat gs ++ g ++ pieces) groups /\
    join [char_lf] (block_lines width pieces (map (@List.concat ascii) gs) (List.concat g)) =
    join [char_lf] (map (@List.concat ascii) groups).
Proof.
  induction pieces as [|s rest IH]; intros gs g F B N; cbn [block_lines].
  - destruct (List.concat g) as [|c l] eqn:E.
    + destruct gs as [|h gs _] using rev_ind.
      * exists [g]. split.
        -- split; [simpl; rewrite app_nil_r; reflexivity|]. simpl in *. auto.
        -- simpl. rewrite E. reflexivity.
      * exists (gs ++ [h ++ g]). split.
        -- split; [|split].
           ++ rewrite !concat_app. simpl. rewrite !app_nil_r, <- !app_assoc. reflexivity.
           ++ rewrite <- app_assoc in F. apply Forall_app in F. destruct F as [F1 F2].
              inv F2. apply Forall_app. split; auto. constructor; auto.
              apply fits_merge; auto.
           ++ assert (breaks_needed width (gs ++ [h])) as B'.
              { clear - B. induction gs as [|x gs IH]; simpl in *; [constructor|].
                destruct gs as [|y gs]; simpl in *; inv B; [constructor; auto; constructor|].
                constructor; auto. }
              apply bn_extend; auto. intros ->.
              destruct gs as [|x gs] using rev_ind; auto. exfalso. clear - B.
              rewrite <- !app_assoc in B. simpl in B.
              induction gs as [|y gs IH]; simpl in *; [inv B|].
              destruct gs; simpl in *; inv B; auto.
        -- rewrite !map_app. simpl. rewrite concat_app, E, app_nil_r. reflexivity.
    + exists (gs ++ [g]). split.
      * split; [|split; auto]. rewrite concat_app. simpl. rewrite !app_nil_r. reflexivity.
      * rewrite map_app. simpl. rewrite E. reflexivity.
  - destruct (Z.gtb_spec (Z.of_nat (List.length (List.concat g)) + Z.of_nat (List.length s)) width) as [G|G].
    + specialize (IH (gs ++ [g]) [s]). rewrite map_app in IH. cbn [map List.concat] in IH.
      rewrite app_nil_r in IH.
      destruct IH as (groups & W & E).
      * apply Forall_app. split; auto. constructor; [|constructor]. right. simpl.
        destruct (negb (bytes_eqb s [])); simpl; lia.
      * apply bn_new; auto. unfold line_length. lia.
      * discriminate.
      * exists groups. split; [|exact E].
        rewrite concat_app in W. simpl in W. rewrite app_nil_r, <- app_assoc in W. exact W.
    + specialize (IH gs (g ++ [s])). rewrite concat_app in IH. cbn [List.concat] in IH.
      rewrite app_nil_r in IH. destruct IH as (groups & W & E).
      * apply Forall_app in F. apply Forall_app. split; [apply F|]. constructor; [|constructor].
        left. rewrite line_length_app, line_length_one. unfold line_length. lia.
      * apply bn_extend; auto.
      * destruct g; discriminate.
      * exists groups. split; [|exact E]. rewrite <- app_assoc in W. exact W.
Qed.

Lemma C12_block_proof pieces width :
  exists groups, wrapped width pieces groups /\
    block_format pieces width = join [char_lf] (map (@List.concat ascii) groups).
Proof.
  destruct (block_groups width pieces [] []) as (groups & W & E).
  - constructor; [|constructor]. right. simpl. lia.
  - constructor.
  - auto.
  - exists groups. split; [exact W|]. exact E.
Qed.

Lemma C12_serialise_proof t width :
  exists groups,
    serialise_game_tree t None = Ok (List.concat (List.concat groups)) /\
    serialise_game_tree t (Some width) = Ok (join [char_lf] (map (@List.concat ascii) groups)) /\
    Forall (fits width) groups /\ breaks_needed width groups /\
    (forall piece, In piece (List.concat groups) -> sgf_piece t piece).
Proof.
  unfold serialise_game_tree. rewrite serialise_pieces. cbn [bind].
  destruct (C12_block_proof (tree_pieces t ++ [[char_lf]]) width) as (groups & (E & F & B) & J).
  exists groups. unfold bytes in *. rewrite E, J. repeat split; auto.
  intros piece H. apply in_app_iff in H. destruct H as [H|H].
  - clear - H. induction t as [sq ch IH] using ctree_ind'.
    cbn [tree_pieces app] in H. destruct H as [<-|H]; [apply sp_delim; auto|].
    apply in_app_iff in H. destruct H as [H|H].
    { apply in_flat_map in H. destruct H as (m & Hm & H). destruct H as [<-|H].
      - apply sp_delim; auto.
      - apply in_map_iff in H. destruct H as ([k vs] & <- & H).
        apply (proj1 (sort_props_In m (k, vs))) in H.
        eapply sp_prop; [|exact H|reflexivity]. apply nt_here. exact Hm. }
    apply in_app_iff in H. destruct H as [H|[<-|[]]]; [|apply sp_delim; auto].
    apply in_flat_map in H. destruct H as (c & Hc & H). rewrite Forall_forall in IH.
    specialize (IH c Hc H). destruct IH as [p|m k vs p N I E].
    + apply sp_delim; auto.
    + eapply sp_prop; eauto. eapply nt_below; eauto.
  - destruct H as [<-|[]]. apply sp_delim; auto.
Qed.

(** * C13: text *)

(** Character-level reading of the chunk loops. *)
Fixpoint ctext (lf : bytes) (esc : bool) (s : bytes) : bytes :=
  match s with
  | [] => []
  | c :: rest =>
      if esc then (if ceqb c char_lf then [] else [c]) ++ ctext lf false rest
      else if ceqb c char_bs then ctext lf true rest
      else (if ceqb c char_lf then lf else [c]) ++ ctext lf false rest
  end.

Lemma chunks_head d s : is_break d = false ->
  exists h t, chunks (d :: s) = (d :: h) :: t.
Proof.
  intros H. cbn [chunks]. rewrite H. destruct s as [|e s]; [eauto|].
  destruct (is_break e); [eauto|]. destruct (chunks (e :: s)); eauto.
Qed.

Lemma not_break_neq c : is_break c = false -> ceqb c char_lf = false /\ ceqb c char_bs = false.
Proof. unfold is_break. intros H. apply orb_false_iff in H. exact H. Qed.

Lemma text_loop_chars : forall s esc, text_loop esc (chunks s) = ctext [char_lf] esc s.
Proof.
  induction s as [|c s IH]; intros esc; [reflexivity|].
  cbn [chunks]. destruct (is_break c) eqn:B.
  - cbn [text_loop]. rewrite !IH. cbn [ctext bytes_eqb]. rewrite !andb_true_r.
    destruct esc; auto. destruct (ceqb_spec c char_bs); auto.
    destruct (ceqb_spec c char_lf); subst; reflexivity.
  - destruct (not_break_neq c B) as [B1 B2].
    assert (forall h, bytes_eqb (c :: h) [char_lf] = false /\ bytes_eqb (c :: h) [char_bs] = false) as BE.
    { intros h. cbn [bytes_eqb]. rewrite B1, B2. auto. }
    destruct s as [|d s].
    + cbn [text_loop]. destruct (BE []) as [-> ->]. cbn [ctext]. rewrite B1, B2.
      destruct esc; reflexivity.
    + destruct (is_break d) eqn:Bd.
      * cbn [text_loop]. destruct (BE []) as [-> ->]. rewrite IH. cbn [ctext]. rewrite B1, B2.
        destruct esc; reflexivity.
      * destruct (chunks_head d s Bd) as (h & t & E). specialize (IH false). rewrite E in *.
        cbn [text_loop] in *. destruct (BE (d :: h)) as [-> ->].
        destruct (not_break_neq d Bd) as [D1 D2].
        assert (bytes_eqb (d :: h) [char_bs] = false) as D3 by (cbn [bytes_eqb]; rewrite D2; auto).
        rewrite D3 in IH. change (ctext [char_lf] esc (c :: d :: s))
          with (if esc then (if ceqb c char_lf then [] else [c]) ++ ctext [char_lf] false (d :: s)
                else if ceqb c char_bs then ctext [char_lf] true (d :: s)
                else (if ceqb c char_lf then [char_lf] else [c]) ++ ctext [char_lf] false (d :: s)).
        rewrite B1, B2, <- IH. destruct esc; reflexivity.
Qed.

Lemma simpletext_loop_chars : forall s esc, simpletext_loop esc (chunks s) = ctext [char_sp] esc s.
Proof.
  induction s as [|c s IH]; intros esc; [reflexivity|].
  cbn [chunks]. destruct (is_break c) eqn:B.
  - cbn [simpletext_loop]. rewrite !IH. cbn [ctext bytes_eqb]. rewrite !andb_true_r.
    destruct esc; auto. destruct (ceqb_spec c char_bs); auto.
    destruct (ceqb_spec c char_lf); subst; reflexivity.
  - destruct (not_break_neq c B) as [B1 B2].
    assert (forall h, bytes_eqb (c :: h) [char_lf] = false /\ bytes_eqb (c :: h) [char_bs] = false) as BE.
    { intros h. cbn [bytes_eqb]. rewrite B1, B2. auto. }
    destruct s as [|d s].
    + cbn [simpletext_loop]. destruct (BE []) as [-> ->]. cbn [ctext]. rewrite B1, B2.
      destruct esc; reflexivity.
    + destruct (is_break d) eqn:Bd.
      * cbn [simpletext_loop]. destruct (BE []) as [-> ->]. rewrite IH. cbn [ctext]. rewrite B1, B2.
        destruct esc; reflexivity.
      * destruct (chunks_head d s Bd) as (h & t & E). specialize (IH false). rewrite E in *.
        cbn [simpletext_loop] in *. destruct (BE (d :: h)) as [-> ->].
        destruct (not_break_neq d Bd) as [D1 D2].
        assert (bytes_eqb (d :: h) [char_bs] = false) as D3 by (cbn [bytes_eqb]; rewrite D2; auto).
        assert (bytes_eqb (d :: h) [char_lf] = false) as D4 by (cbn [bytes_eqb]; rewrite D1; auto).
        rewrite D3, D4 in IH. change (ctext [char_sp] esc (c :: d :: s))
          with (if esc then (if ceqb c char_lf then [] else [c]) ++ ctext [char_sp] false (d :: s)
                else if ceqb c char_bs then ctext [char_sp] true (d :: s)
                else (if ceqb c char_lf then [char_sp] else [c]) ++ ctext [char_sp] false (d :: s)).
        rewrite B1, B2, <- IH. destruct esc; reflexivity.
Qed.

(** White space normalisation. *)
Definition wnorm (s : bytes) : bytes := map translate_space (normalise_newlines s).

Lemma text_value_chars s : text_value s = ctext [char_lf] false (wnorm s).
Proof. apply text_loop_chars. Qed.

Lemma simpletext_value_chars s : simpletext_value s = ctext [char_sp] false (wnorm s).
Proof. apply simpletext_loop_chars. Qed.

(** Escaping with a table of characters to escape. *)
Definition esc_with (f : ascii -> bool) (s : bytes) : bytes :=
  flat_map (fun c => if f c then [char_bs; c] else [c]) s.

Definition esc_basic (c : ascii) : bool := ceqb c char_bs || ceqb c char_rb.
Definition esc_compose (c : ascii) : bool := esc_basic c || ceqb c char_colon.

Lemma escape_text_with s : escape_text s = esc_with esc_basic s.
Proof.
  unfold escape_text, replace_char, esc_with, esc_basic.
  induction s as [|c s IH]; cbn [flat_map]; auto.
  destruct (ceqb_spec c char_bs) as [->|N]; cbn [app flat_map orb].
  - rewrite IH. reflexivity.
  - rewrite IH. destruct (ceqb_spec c char_rb) as [->|]; reflexivity.
Qed.

Lemma compose_first_with s :
  replace_char char_colon [char_bs; char_colon] (escape_text s) = esc_with esc_compose s.
Proof.
  rewrite escape_text_with. unfold replace_char, esc_with, esc_compose.
  induction s as [|c s IH]; cbn [flat_map]; auto.
  rewrite flat_map_app, IH. f_equal. unfold esc_basic.
  destruct (ceqb_spec c char_bs) as [->|N]; cbn [app flat_map orb]; auto.
  destruct (ceqb_spec c char_rb) as [->|N2]; cbn [app flat_map orb]; auto.
  destruct (ceqb_spec c char_colon) as [->|]; reflexivity.
Qed.

(** The tables never concern white space. *)
Definition no_white (f : ascii -> bool) : Prop :=
  forall c, In c ["009"%char; "010"%char; "011"%char; "012"%char; "013"%char; " "%char] -> f c = false.

Lemma no_white_basic : no_white esc_basic.
Proof. intros c H. simpl in H. intuition subst; reflexivity. Qed.

Lemma no_white_compose : no_white esc_compose.
Proof. intros c H. simpl in H. intuition subst; reflexivity. Qed.

Lemma esc_cons f c s : esc_with f (c :: s) = (if f c then [char_bs; c] else [c]) ++ esc_with f s.
Proof. reflexivity. Qed.

Lemma nn_plain c s : ceqb c char_lf = false -> ceqb c char_cr = false ->
  normalise_newlines (c :: s) = c :: normalise_newlines s.
Proof. intros H1 H2. cbn [normalise_newlines]. rewrite H1, H2. reflexivity. Qed.

Lemma nn_bs s : normalise_newlines (char_bs :: s) = char_bs :: normalise_newlines s.
Proof. apply nn_plain; reflexivity. Qed.

Lemma nn_esc f : no_white f -> f char_bs = true ->
  forall n s, (List.length s <= n)%nat -> normalise_newlines (esc_with f s) = esc_with f (normalise_newlines s).
Proof.
  intros W Fb. assert (f char_lf = false) as Wlf by (apply W; simpl; tauto).
  assert (f char_cr = false) as Wcr by (apply W; simpl; tauto).
  induction n as [|n IH]; intros [|c s] L; simpl in L; try reflexivity; [lia|].
  destruct (ceqb_spec c char_lf) as [->|N1].
  { rewrite esc_cons, Wlf. cbn [app]. destruct s as [|d s]; [simpl; rewrite Wlf; reflexivity|]. simpl in L.
    destruct (ceqb_spec d char_cr) as [->|N2].
    - rewrite esc_cons, Wcr. cbn [app normalise_newlines].
      change (ceqb char_lf char_lf) with true. change (ceqb char_cr char_cr) with true. cbv iota.
      rewrite esc_cons, Wlf. cbn [app]. rewrite IH by lia. reflexivity.
    - assert (normalise_newlines (char_lf :: d :: s) = char_lf :: normalise_newlines (d :: s)) as ->.
      { cbn [normalise_newlines]. change (ceqb char_lf char_lf) with true.
        destruct (ceqb_spec d char_cr); [contradiction|]. reflexivity. }
      rewrite (esc_cons f char_lf), Wlf. cbn [app]. rewrite <- IH by (simpl; lia).
      rewrite esc_cons. destruct (f d); cbn [app]; cbn [normalise_newlines];
        change (ceqb char_lf char_lf) with true; [change (ceqb char_bs char_cr) with false|]; cbv iota.
      + reflexivity.
      + destruct (ceqb_spec d char_cr); [contradiction|]. reflexivity. }
  destruct (ceqb_spec c char_cr) as [->|N2].
  { rewrite esc_cons, Wcr. cbn [app]. destruct s as [|d s]; [simpl; rewrite Wlf; reflexivity|]. simpl in L.
    destruct (ceqb_spec d char_lf) as [->|N3].
    - rewrite esc_cons, Wlf. cbn [app normalise_newlines].
      change (ceqb char_cr char_lf) with false. change (ceqb char_cr char_cr) with true.
      change (ceqb char_lf char_lf) with true. cbv iota.
      rewrite esc_cons, Wlf. cbn [app]. rewrite IH by lia. reflexivity.
    - assert (normalise_newlines (char_cr :: d :: s) = char_lf :: normalise_newlines (d :: s)) as ->.
      { cbn [normalise_newlines]. change (ceqb char_cr char_lf) with false.
        change (ceqb char_cr char_cr) with true.
        destruct (ceqb_spec d char_lf); [contradiction|]. reflexivity. }
      rewrite (esc_cons f char_lf), Wlf. cbn [app]. rewrite <- IH by (simpl; lia).
      rewrite esc_cons. destruct (f d); cbn [app]; cbn [normalise_newlines];
        change (ceqb char_cr char_lf) with false; change (ceqb char_cr char_cr) with true;
        [change (ceqb char_bs char_lf) with false|]; cbv iota.
      + reflexivity.
      + destruct (ceqb_spec d char_lf); [contradiction|]. reflexivity. }
  assert (ceqb c char_lf = false) as E1 by (destruct (ceqb_spec c char_lf); congruence).
  assert (ceqb c char_cr = false) as E2 by (destruct (ceqb_spec c char_cr); congruence).
  rewrite (nn_plain c s E1 E2), !esc_cons. destruct (f c); cbn [app].
  - rewrite nn_bs, nn_plain by auto. rewrite IH by lia. reflexivity.
  - rewrite nn_plain by auto. rewrite IH by lia. reflexivity.
Qed.

Lemma translate_esc f : no_white f -> forall s,
  map translate_space (esc_with f s) = esc_with f (map translate_space s).
Proof.
  intros W. induction s as [|c s IH]; [reflexivity|].
  cbn [map]. rewrite !esc_cons, map_app, IH. f_equal.
  unfold translate_space. destruct (ceqb c char_tab || ceqb c char_ff || ceqb c char_vt) eqn:E.
  - assert (f c = false) as ->.
    { apply W. rewrite !orb_true_iff in E. simpl.
      destruct E as [[E|E]|E]; [destruct (ceqb_spec c char_tab)|destruct (ceqb_spec c char_ff)|destruct (ceqb_spec c char_vt)];
        try discriminate; subst; tauto. }
    assert (f char_sp = false) as -> by (apply W; simpl; tauto).
    cbn [map]. rewrite E. reflexivity.
  - destruct (f c); cbn [map]; rewrite E; reflexivity.
Qed.

Lemma wnorm_esc f s : no_white f -> f char_bs = true -> wnorm (esc_with f s) = esc_with f (wnorm s).
Proof.
  intros W B. unfold wnorm. rewrite (nn_esc f W B (List.length s)) by auto. apply translate_esc. exact W.
Qed.

Definition subst_lf (lf : bytes) (s : bytes) : bytes :=
  flat_map (fun c => if ceqb c char_lf then lf else [c]) s.

Lemma ctext_esc lf f : no_white f -> f char_bs = true -> forall s,
  ctext lf false (esc_with f s) = subst_lf lf s.
Proof.
  intros W B. assert (f char_lf = false) as Wlf by (apply W; simpl; tauto).
  induction s as [|c s IH]; [reflexivity|].
  rewrite esc_cons. unfold subst_lf in *. cbn [flat_map]. rewrite <- IH.
  destruct (f c) eqn:E; cbn [app ctext].
  - change (ceqb char_bs char_bs) with true. cbv iota.
    destruct (ceqb_spec c char_lf) as [->|]; [congruence|]. reflexivity.
  - destruct (ceqb_spec c char_bs) as [->|]; [congruence|]. reflexivity.
Qed.

Lemma subst_lf_id s : subst_lf [char_lf] s = s.
Proof.
  induction s as [|c s IH]; simpl; auto. unfold subst_lf in *. rewrite IH.
  destruct (ceqb_spec c char_lf); subst; reflexivity.
Qed.

Lemma esc_text_value f s : no_white f -> f char_bs = true ->
  text_value (esc_with f s) = wnorm s.
Proof.
  intros W B. rewrite text_value_chars, wnorm_esc, ctext_esc by auto. apply subst_lf_id.
Qed.

Lemma esc_simpletext_value f s : no_white f -> f char_bs = true ->
  simpletext_value (esc_with f s) = subst_lf [char_sp] (wnorm s).
Proof. intros W B. rewrite simpletext_value_chars, wnorm_esc, ctext_esc by auto. reflexivity. Qed.

Lemma not_white_list c : ~ In c ["009"%char; "010"%char; "011"%char; "012"%char; "013"%char] ->
  ceqb c char_lf = false /\ ceqb c char_cr = false /\ translate_space c = c.
Proof.
  intros H. simpl in H. unfold translate_space.
  destruct (ceqb_spec c char_lf), (ceqb_spec c char_cr), (ceqb_spec c char_tab),
    (ceqb_spec c char_ff), (ceqb_spec c char_vt); subst; try (exfalso; apply H; tauto). auto.
Qed.

Lemma wnorm_spec : forall n s, (List.length s <= n)%nat -> text_norm s (wnorm s).
Proof.
  unfold wnorm. induction n as [|n IH]; intros [|c s] L; simpl in L; try constructor; try lia.
  destruct (ceqb_spec c char_lf) as [->|N1].
  { destruct s as [|d s].
    - simpl. apply tn_lf; [discriminate|constructor].
    - simpl in L. destruct (ceqb_spec d char_cr) as [->|N2].
      + cbn [normalise_newlines]. change (ceqb char_lf char_lf) with true.
        change (ceqb char_cr char_cr) with true. cbv iota. cbn [map].
        apply tn_lfcr. apply IH. lia.
      + assert (normalise_newlines (char_lf :: d :: s) = char_lf :: normalise_newlines (d :: s)) as ->.
        { cbn [normalise_newlines]. change (ceqb char_lf char_lf) with true.
          destruct (ceqb_spec d char_cr); [contradiction|]. reflexivity. }
        cbn [map]. apply tn_lf; [simpl; intros E; inv E; apply N2; reflexivity|]. apply IH. simpl. lia. }
  destruct (ceqb_spec c char_cr) as [->|N2].
  { destruct s as [|d s].
    - simpl. apply tn_cr; [discriminate|constructor].
    - simpl in L. destruct (ceqb_spec d char_lf) as [->|N3].
      + cbn [normalise_newlines]. change (ceqb char_cr char_lf) with false.
        change (ceqb char_cr char_cr) with true. change (ceqb char_lf char_lf) with true. cbv iota.
        cbn [map]. apply tn_crlf. apply IH. lia.
      + assert (normalise_newlines (char_cr :: d :: s) = char_lf :: normalise_newlines (d :: s)) as ->.
        { cbn [normalise_newlines]. change (ceqb char_cr char_lf) with false.
          change (ceqb char_cr char_cr) with true.
          destruct (ceqb_spec d char_lf); [contradiction|]. reflexivity. }
        cbn [map]. apply tn_cr; [simpl; intros E; inv E; apply N3; reflexivity|]. apply IH. simpl. lia. }
  rewrite nn_plain by (match goal with |- ceqb ?a ?b = false => destruct (ceqb_spec a b); congruence end).
  cbn [map]. unfold translate_space at 1.
  destruct (ceqb_spec c char_tab) as [->|N3]; [apply tn_space; [auto|apply IH; lia]|].
  destruct (ceqb_spec c char_ff) as [->|N4]; [apply tn_space; [auto|apply IH; lia]|].
  destruct (ceqb_spec c char_vt) as [->|N5]; [apply tn_space; [auto|apply IH; lia]|].
  cbn [orb]. apply tn_plain; [|apply IH; lia].
  simpl. unfold char_lf, char_cr, char_tab, char_ff, char_vt in *. intuition congruence.
Qed.

Lemma text_norm_fun s t : text_norm s t -> forall t', text_norm s t' -> t = t'.
Proof.
  induction 1; intros t' H'; inversion H'; subst; auto; try (f_equal; auto; fail);
    try (simpl in *; congruence);
    try (match goal with H : _ \/ _ |- _ => destruct H as [?|[?|?]]; congruence end);
    try (exfalso; match goal with H : ~ In _ _ |- _ => apply H; simpl; tauto end);
    try (exfalso; match goal with H : ~ In _ _, H2 : _ \/ _ |- _ => apply H; simpl; intuition congruence end).
Qed.

Lemma C13_valid_proof s : good_value (escape_text s).
Proof.
  rewrite escape_text_with. induction s as [|c s IH]; [constructor|].
  rewrite esc_cons. unfold esc_basic.
  destruct (ceqb_spec c char_bs) as [->|N1]; cbn [orb app]; [apply gv_escaped; auto|].
  destruct (ceqb_spec c char_rb) as [->|N2]; cbn [orb app]; [apply gv_escaped; auto|].
  apply gv_plain; auto.
Qed.

Lemma C13_text_proof s : text_norm s (text_value (escape_text s)).
Proof.
  rewrite escape_text_with, esc_text_value by (auto using no_white_basic). apply (wnorm_spec (List.length s)). auto.
Qed.

Lemma subst_lf_map s : subst_lf [char_sp] s = map newline_to_space s.
Proof.
  unfold subst_lf, newline_to_space. induction s as [|c s IH]; simpl; auto. rewrite IH.
  destruct (ceqb_spec c char_lf) as [->|N]; [reflexivity|].
  destruct (ascii_dec c "010"%char); [contradiction|]. reflexivity.
Qed.

Lemma C13_simpletext_proof s : exists u, text_norm s u /\
  simpletext_value (escape_text s) = map newline_to_space u.
Proof.
  exists (wnorm s). split; [apply (wnorm_spec (List.length s)); auto|].
  rewrite escape_text_with, esc_simpletext_value by (auto using no_white_basic). apply subst_lf_map.
Qed.

Lemma text_norm_id s : Forall (fun c => ~ In c ["009"%char; "011"%char; "012"%char; "013"%char]) s ->
  text_norm s s.
Proof.
  induction 1 as [|c s H F IH]; [constructor|].
  destruct (ascii_dec c "010"%char) as [->|N].
  - apply tn_lf; auto. inv F; simpl; [discriminate|]. intros E. inv E. apply H0. simpl. tauto.
  - apply tn_plain; auto. simpl in *. intuition congruence.
Qed.

Lemma C13_exact_proof s : Forall (fun c => ~ In c ["009"%char; "011"%char; "012"%char; "013"%char]) s ->
  text_value (escape_text s) = s.
Proof.
  intros H. symmetry. apply (text_norm_fun s); [apply text_norm_id; auto|apply C13_text_proof].
Qed.

Lemma C13_simple_exact_proof s :
  Forall (fun c => ~ In c ["009"%char; "010"%char; "011"%char; "012"%char; "013"%char]) s ->
  simpletext_value (escape_text s) = s.
Proof.
  intros H. destruct (C13_simpletext_proof s) as (u & N & ->).
  assert (u = s) as ->.
  { apply (text_norm_fun s); auto. apply text_norm_id. eapply Forall_impl; [|exact H].
    simpl. tauto. }
  clear N. induction H as [|c s H F IH]; auto. simpl. rewrite IH. f_equal.
  unfold newline_to_space. destruct (ascii_dec c "010"%char); auto. exfalso. apply H. subst c. simpl. tauto.
Qed.

(** The meaning of any raw value. *)
Lemma ctext_unescape lf s : unescaped lf s (ctext lf false s).
Proof.
  remember (List.length s) as n. revert s Heqn. induction n as [n IH] using lt_wf_ind.
  intros [|c s] E; [constructor|]. simpl in E. cbn [ctext].
  destruct (ceqb_spec c char_bs) as [->|N].
  - destruct s as [|d s]; [constructor|]. simpl in E. cbn [ctext].
    destruct (ceqb_spec d char_lf) as [->|N2]; cbn [app].
    + apply un_soft. apply (IH (List.length s)); auto. lia.
    + apply un_escaped; auto. apply (IH (List.length s)); auto. lia.
  - destruct (ceqb_spec c char_lf) as [->|N2].
    + apply un_newline. apply (IH (List.length s)); auto. lia.
    + cbn [app]. apply un_plain; auto. apply (IH (List.length s)); auto. lia.
Qed.

Lemma C13_meaning_proof s : exists u, text_norm s u /\
  unescaped ["010"%char] u (text_value s) /\ unescaped [" "%char] u (simpletext_value s).
Proof.
  exists (wnorm s). split; [apply (wnorm_spec (List.length s)); auto|].
  rewrite text_value_chars, simpletext_value_chars. split; apply ctext_unescape.
Qed.

(** * C14: compose *)

Lemma split_first a b : no_bare_colon a -> split_compose (a ++ ":"%char :: b) = Some (a, b).
Proof.
  induction 1 as [|c v N1 N2 G IH|c v G IH]; cbn [app split_compose].
  - reflexivity.
  - destruct (ceqb_spec c char_colon); [contradiction|].
    destruct (ceqb_spec c char_bs); [contradiction|]. rewrite IH. reflexivity.
  - change (ceqb "\" char_colon) with false. change (ceqb "\" char_bs) with true. cbv iota.
    rewrite IH. reflexivity.
Qed.

Lemma split_inv : forall n s a b, (List.length s <= n)%nat -> split_compose s = Some (a, b) ->
  s = a ++ ":"%char :: b /\ no_bare_colon a.
Proof.
  induction n as [|n IH]; intros [|c s] a b L E; try discriminate; simpl in L; [lia|].
  cbn [split_compose] in E. destruct (ceqb_spec c char_colon) as [->|N1].
  - inv E. split; [reflexivity|constructor].
  - destruct (ceqb_spec c char_bs) as [->|N2].
    + destruct s as [|d s]; [discriminate|]. simpl in L.
      destruct (split_compose s) as [[a' b']|] eqn:T; [|discriminate]. inv E.
      apply IH in T; [|lia]. destruct T as [-> G]. split; [reflexivity|]. apply nc_escaped; auto.
    + destruct (split_compose s) as [[a' b']|] eqn:T; [|discriminate]. inv E.
      apply IH in T; [|lia]. destruct T as [-> G]. split; [reflexivity|]. apply nc_plain; auto.
Qed.

Lemma C14_exact_proof s a ob : parse_compose s = (a, ob) ->
  match ob with
  | Some b => s = a ++ ":"%char :: b /\ no_bare_colon a
  | None => a = s /\ forall x y, s = x ++ ":"%char :: y -> ~ no_bare_colon x
  end.
Proof.
  unfold parse_compose. destruct (split_compose s) as [[a' b']|] eqn:E; intros H; inv H.
  - apply (split_inv (List.length s)); auto.
  - split; auto. intros x y -> G. rewrite split_first in E by auto. discriminate.
Qed.

Lemma esc_compose_no_colon s : no_bare_colon (esc_with esc_compose s).
Proof.
  induction s as [|c s IH]; [constructor|]. rewrite esc_cons. unfold esc_compose, esc_basic.
  destruct (ceqb_spec c char_bs) as [->|N1]; cbn [orb app]; [apply nc_escaped; auto|].
  destruct (ceqb_spec c char_rb) as [->|N2]; cbn [orb app]; [apply nc_escaped; auto|].
  destruct (ceqb_spec c char_colon) as [->|N3]; cbn [orb app]; [apply nc_escaped; auto|].
  apply nc_plain; auto.
Qed.

Lemma esc_compose_value s : good_value (esc_with esc_compose s).
Proof.
  induction s as [|c s IH]; [constructor|]. rewrite esc_cons. unfold esc_compose, esc_basic.
  destruct (ceqb_spec c char_bs) as [->|N1]; cbn [orb app]; [apply gv_escaped; auto|].
  destruct (ceqb_spec c char_rb) as [->|N2]; cbn [orb app]; [apply gv_escaped; auto|].
  destruct (ceqb_spec c char_colon) as [->|N3]; cbn [orb app]; [apply gv_escaped; auto|].
  apply gv_plain; auto.
Qed.

Lemma good_value_app a b : good_value a -> good_value b -> good_value (a ++ b).
Proof.
  induction 1 as [|c v N1 N2 G IH|c v G IH]; simpl; auto; intros B;
    [apply gv_plain|apply gv_escaped]; auto.
Qed.

Lemma C14_proof a s2 : exists first,
  parse_compose (compose (escape_text a) s2) = (first, Some s2) /\
  text_value first = text_value (escape_text a) /\
  simpletext_value first = simpletext_value (escape_text a) /\
  (good_value s2 -> good_value (compose (escape_text a) s2)).
Proof.
  exists (esc_with esc_compose a). unfold parse_compose, compose. rewrite compose_first_with.
  rewrite escape_text_with.
  cbn [app]. rewrite split_first by apply esc_compose_no_colon.
  split; auto. rewrite !esc_text_value, !esc_simpletext_value by (auto using no_white_basic, no_white_compose).
  repeat split; auto. intros G.
  apply good_value_app; [apply esc_compose_value|]. apply gv_plain; auto; discriminate.
Qed.

(** Without colons, the first part comes back byte for byte. *)
Lemma C14_no_colon_proof a s2 : ~ In ":"%char a -> good_value a ->
  parse_compose (compose a s2) = (a, Some s2).
Proof.
  intros N G. unfold parse_compose, compose.
  assert (replace_char char_colon [char_bs; char_colon] a = a) as ->.
  { clear G. unfold replace_char. induction a as [|c a IH]; simpl in *; auto.
    destruct (ceqb_spec c char_colon) as [->|]; [tauto|]. simpl. rewrite IH by tauto. reflexivity. }
  cbn [app]. rewrite split_first; auto.
  clear - N G. induction G as [|c v N1 N2 G IH|c v G IH]; simpl in N; [constructor|apply nc_plain|apply nc_escaped];
    auto; try (apply IH; tauto).
Qed.
