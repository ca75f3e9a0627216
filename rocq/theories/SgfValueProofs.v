From Verif Require Import Base Bytes PyStr BoardSpec BoardModel SgfGrammarSpec SgfGrammarModel
  SgfGrammarProofs SgfTextProofs CommonModel CommonProofs DiagramProofs SgfPropsModel SgfPropsSpec
  SgfPropsProofs SgfValueSpec.

Definition valid_cp (z : Z) : Prop := 0 <= z < 1114112.

(** * UTF-8 *)

Lemma utf8_char_spec z : valid_cp z -> utf8_of z (utf8_char z).
Proof.
  intros H. unfold valid_cp in H. unfold utf8_char.
  destruct (Z.ltb_spec z 128); [constructor; [lia|apply ord_chr; lia]|].
  assert (0 <= z mod 64 < 64) as M1 by (apply Z.mod_pos_bound; lia).
  assert (0 <= z / 64 mod 64 < 64) as M2 by (apply Z.mod_pos_bound; lia).
  assert (0 <= z / 4096 mod 64 < 64) as M3 by (apply Z.mod_pos_bound; lia).
  pose proof (Z.div_mod z 64 ltac:(lia)) as D1.
  pose proof (Z.div_mod (z / 64) 64 ltac:(lia)) as D2.
  pose proof (Z.div_mod (z / 4096) 64 ltac:(lia)) as D3.
  replace (z / 64 / 64) with (z / 4096) in D2 by (rewrite Z.div_div by lia; reflexivity).
  replace (z / 4096 / 64) with (z / 262144) in D3 by (rewrite Z.div_div by lia; reflexivity).
  destruct (Z.ltb_spec z 2048).
  { eapply u8_2 with (h := z / 64) (l := z mod 64); try lia; apply ord_chr; lia. }
  destruct (Z.ltb_spec z 65536).
  { eapply u8_3 with (h := z / 4096) (m := z / 64 mod 64) (l := z mod 64); try lia; apply ord_chr; lia. }
  eapply u8_4 with (h := z / 262144) (k := z / 4096 mod 64) (m := z / 64 mod 64) (l := z mod 64);
    try lia; apply ord_chr; lia.
Qed.

Lemma utf8_of_valid z c : utf8_of z c -> valid_cp z.
Proof. intros [z' a H|z' a b h l H|z' a b c' h m l H|z' a b c' d h k m l H]; unfold valid_cp; lia. Qed.

Lemma utf8_of_decode z c s : utf8_of z c ->
  utf8_decode (c ++ s) = option_map (cons z) (utf8_decode s).
Proof.
  intros [z' a H A|z' a b h l H E L A B|z' a b c' h m l H E M L A B C
         |z' a b c' d h k m l H E K M L A B C D]; cbn [app utf8_decode]; unfold is_cont, cont_bits;
    rewrite ?A, ?B, ?C, ?D.
  - destruct (Z.ltb_spec z' 128); [|lia]. reflexivity.
  - destruct (Z.ltb_spec (192 + h) 128); [lia|]. destruct (Z.ltb_spec (192 + h) 194); [lia|].
    destruct ((128 <=? 128 + l) && (128 + l <? 192)) eqn:X; [|lia]. cbn [negb].
    destruct (Z.ltb_spec (192 + h) 224); [|lia]. f_equal. f_equal. lia.
  - destruct (Z.ltb_spec (224 + h) 128); [lia|]. destruct (Z.ltb_spec (224 + h) 194); [lia|].
    destruct ((128 <=? 128 + m) && (128 + m <? 192)) eqn:X; [|lia]. cbn [negb].
    destruct (Z.ltb_spec (224 + h) 224); [lia|].
    destruct ((128 <=? 128 + l) && (128 + l <? 192)) eqn:X2; [|lia]. cbn [negb].
    destruct (Z.ltb_spec (224 + h) 240); [|lia]. cbv zeta.
    match goal with |- context [if ?e <? 2048 then _ else _] => replace e with z' by lia end.
    destruct (Z.ltb_spec z' 2048); [lia|]. reflexivity.
  - destruct (Z.ltb_spec (240 + h) 128); [lia|]. destruct (Z.ltb_spec (240 + h) 194); [lia|].
    destruct ((128 <=? 128 + k) && (128 + k <? 192)) eqn:X; [|lia]. cbn [negb].
    destruct (Z.ltb_spec (240 + h) 224); [lia|].
    destruct ((128 <=? 128 + m) && (128 + m <? 192)) eqn:X2; [|lia]. cbn [negb].
    destruct (Z.ltb_spec (240 + h) 240); [lia|].
    destruct ((128 <=? 128 + l) && (128 + l <? 192)) eqn:X3; [|lia]. cbn [negb]. cbv zeta.
    match goal with |- context [(?e <? 65536)] => replace e with z' by lia end.
    destruct (Z.ltb_spec z' 65536); [lia|]. destruct (Z.ltb_spec 1114111 z'); [lia|]. reflexivity.
Qed.

Lemma utf8_decode_of u s : utf8 u s -> utf8_decode s = Some u.
Proof.
  induction 1 as [|z c u s H _ IH]; auto. rewrite (utf8_of_decode _ _ _ H), IH. reflexivity.
Qed.

Lemma option_map_cons_inv {A} (z : A) o u : option_map (cons z) o = Some u -> exists u', o = Some u' /\ u = z :: u'.
Proof. destruct o; simpl; [|discriminate]. intros E. injection E as <-. eauto. Qed.

Lemma utf8_decode_sound : forall n s u, (List.length s <= n)%nat -> utf8_decode s = Some u -> utf8 u s.
Proof.
  induction n as [|n IH]; intros s u Ln; [destruct s; simpl in Ln; [|lia]; simpl; intros E; injection E as <-; constructor|].
  destruct s as [|c0 r0]; [simpl; intros E; injection E as <-; constructor|].
  cbn [List.length] in Ln.
  cbn [utf8_decode]. pose proof (ord_range c0).
  destruct (Z.ltb_spec (ord c0) 128).
  { intros E. apply option_map_cons_inv in E. destruct E as (u' & E & ->).
    change (c0 :: r0) with ([c0] ++ r0). constructor; [|apply IH; auto; lia]. constructor; auto. lia. }
  destruct (Z.ltb_spec (ord c0) 194); [discriminate|].
  destruct r0 as [|c1 r1]; [discriminate|]. cbn [List.length] in Ln.
  unfold is_cont, cont_bits.
  destruct ((128 <=? ord c1) && (ord c1 <? 192)) eqn:X1; cbn [negb]; [|discriminate].
  destruct (Z.ltb_spec (ord c0) 224).
  { intros E. apply option_map_cons_inv in E. destruct E as (u' & E & ->).
    change (c0 :: c1 :: r1) with ([c0; c1] ++ r1). constructor; [|apply IH; auto; lia].
    eapply u8_2 with (h := ord c0 - 192) (l := ord c1 - 128); lia. }
  destruct r1 as [|c2 r2]; [discriminate|]. cbn [List.length] in Ln.
  destruct ((128 <=? ord c2) && (ord c2 <? 192)) eqn:X2; cbn [negb]; [|discriminate].
  destruct (Z.ltb_spec (ord c0) 240).
  { cbv zeta. destruct (Z.ltb_spec ((ord c0 - 224) * 4096 + (ord c1 - 128) * 64 + (ord c2 - 128)) 2048); [discriminate|].
    intros E. apply option_map_cons_inv in E. destruct E as (u' & E & ->).
    change (c0 :: c1 :: c2 :: r2) with ([c0; c1; c2] ++ r2). constructor; [|apply IH; auto; lia].
    eapply u8_3 with (h := ord c0 - 224) (m := ord c1 - 128) (l := ord c2 - 128); lia. }
  destruct r2 as [|c3 r3]; [discriminate|]. cbn [List.length] in Ln.
  destruct ((128 <=? ord c3) && (ord c3 <? 192)) eqn:X3; cbn [negb]; [|discriminate]. cbv zeta.
  match goal with |- context [(?e <? 65536)] => set (z := e) end.
  destruct (Z.ltb_spec z 65536); [discriminate|]. destruct (Z.ltb_spec 1114111 z); [discriminate|]. cbn [orb].
  intros E. apply option_map_cons_inv in E. destruct E as (u' & E & ->).
  change (c0 :: c1 :: c2 :: c3 :: r3) with ([c0; c1; c2; c3] ++ r3). constructor; [|apply IH; auto; lia].
  eapply u8_4 with (h := ord c0 - 240) (k := ord c1 - 128) (m := ord c2 - 128) (l := ord c3 - 128); subst z; lia.
Qed.

Lemma utf8_encode_spec u : Forall valid_cp u -> utf8 u (utf8_encode u).
Proof.
  induction 1 as [|z u H F IH]; [constructor|]. unfold utf8_encode. cbn [flat_map].
  constructor; auto. apply utf8_char_spec; auto.
Qed.

Lemma utf8_of_fun z c c' : utf8_of z c -> utf8_of z c' -> c = c'.
Proof.
  intros H H'.
  destruct H as [z a H A|z a b h l H E L A B|z a b c h m l H E M L A B C|z a b c d h k m l H E K M L A B C D];
  inversion H' as [z' a' H1 A1|z' a' b' h' l' H1 E1 L1 A1 B1|z' a' b' c1' h' m' l' H1 E1 M1 L1 A1 B1 C1
         |z' a' b' c1' d' h' k' m' l' H1 E1 K1 M1 L1 A1 B1 C1 D1]; subst; try lia.
  - f_equal. apply ord_inj. auto.
  - assert (h' = h /\ l' = l) as [-> ->] by lia. repeat f_equal; apply ord_inj; lia.
  - assert (h' = h /\ m' = m /\ l' = l) as (-> & -> & ->) by lia. repeat f_equal; apply ord_inj; lia.
  - assert (h' = h /\ k' = k /\ m' = m /\ l' = l) as (-> & -> & -> & ->) by lia.
    repeat f_equal; apply ord_inj; lia.
Qed.

Lemma utf8_fun u s : utf8 u s -> s = utf8_encode u /\ Forall valid_cp u.
Proof.
  induction 1 as [|z c u s H _ [-> IH]]; [auto|]. pose proof (utf8_of_valid _ _ H) as V.
  split; auto. unfold utf8_encode. cbn [flat_map]. f_equal.
  eapply utf8_of_fun; [exact H|]. apply utf8_char_spec, V.
Qed.

(** The bytes of a character above 127 are above 127. *)
Lemma utf8_char_high z : valid_cp z -> 128 <= z -> Forall (fun c => 128 <= ord c) (utf8_char z) /\ utf8_char z <> [].
Proof.
  intros V H. pose proof (utf8_char_spec z V) as S.
  destruct S as [z' a H' A|z' a b h l H' E L A B|z' a b c h m l H' E M L A B C|z' a b c d h k m l H' E K M L A B C D];
    (split; [repeat constructor; lia|discriminate]).
Qed.

Lemma utf8_char_low z : 0 <= z < 128 -> utf8_char z = [chr z].
Proof. intros H. unfold utf8_char. destruct (Z.ltb_spec z 128); auto; lia. Qed.

Lemma utf8_head y u c : valid_cp y -> hd_error (utf8_encode (y :: u)) = Some c -> ord c < 128 -> ord c = y.
Proof.
  intros V H L. unfold utf8_encode in H. cbn [flat_map] in H.
  destruct (Z.ltb_spec y 128) as [Ly|Ly].
  - rewrite utf8_char_low in H by (unfold valid_cp in V; lia). simpl in H. injection H as <-.
    apply ord_chr. unfold valid_cp in V; lia.
  - destruct (utf8_char_high y V Ly) as [F N]. destruct (utf8_char y) as [|d r]; [congruence|].
    simpl in H. injection H as ->. inversion F; subst. lia.
Qed.

(** * White space normalisation of unicode text *)

Lemma high_plain c : 128 <= ord c -> ~ In c ["009"%char; "010"%char; "011"%char; "012"%char; "013"%char].
Proof.
  intros H I. simpl in I. repeat destruct I as [<-|I]; auto;
  match type of H with _ <= ord ?c => let v := eval vm_compute in (ord c) in change (ord c) with v in H end; lia.
Qed.

Lemma text_norm_high p s t : Forall (fun c => 128 <= ord c) p -> text_norm s t -> text_norm (p ++ s) (p ++ t).
Proof.
  induction 1 as [|c p H _ IH]; intros N; simpl; auto. apply tn_plain; auto. apply high_plain; auto.
Qed.

Lemma chr_plain z : 0 <= z < 256 -> ~ (9 <= z <= 13) ->
  ~ In (chr z) ["009"%char; "010"%char; "011"%char; "012"%char; "013"%char].
Proof.
  intros H N I. simpl in I.
  assert (exists k, 9 <= k <= 13 /\ chr z = chr k) as (k & K & E).
  { repeat destruct I as [I|I]; try contradiction; [exists 9|exists 10|exists 11|exists 12|exists 13];
    (split; [lia|]; rewrite <- I; reflexivity). }
  apply (f_equal ord) in E. rewrite !ord_chr in E by lia. lia.
Qed.

Definition below (lim : Z) (u : list Z) : Prop := Forall (fun z => z < lim) u.

Lemma norm_unicode : forall n u, (List.length u <= n)%nat -> Forall valid_cp u ->
  exists u', Forall valid_cp u' /\ (forall lim, 33 <= lim -> below lim u -> below lim u') /\
    text_norm (utf8_encode u) (utf8_encode u') /\
    (below 256 u -> text_norm (map chr u) (map chr u')).
Proof.
  induction n as [|n IH]; intros [|z u] Ln V; try (cbn [List.length] in Ln; lia);
    try (exists []; repeat split; auto; constructor).
  cbn [List.length] in Ln. apply Forall_cons_iff in V. destruct V as [Vz V].
  destruct (IH u ltac:(lia) V) as (u' & V' & B' & N1 & N2).
  assert (forall lim, below lim (z :: u) -> z < lim /\ below lim u) as BI.
  { intros lim B. apply Forall_cons_iff in B. exact B. }
  destruct (Z.ltb_spec z 128) as [Lz|Lz].
  2:{ exists (z :: u'). split; [constructor; auto|]. split.
      { intros lim Hl B. apply BI in B. constructor; [tauto|apply B'; tauto]. }
      split.
      - unfold utf8_encode. cbn [flat_map]. apply text_norm_high; auto. apply utf8_char_high; auto.
      - intros B. apply BI in B. cbn [map]. apply tn_plain; [|apply N2; tauto].
        apply chr_plain; lia. }
  unfold valid_cp in Vz.
  assert (forall w, utf8_encode (z :: w) = chr z :: utf8_encode w) as Ez.
  { intros w. unfold utf8_encode. cbn [flat_map]. rewrite utf8_char_low by lia. reflexivity. }
  destruct (Z.eq_dec z 10) as [->|N10].
  { destruct u as [|y u2].
    - exists [10]. split; [repeat constructor; unfold valid_cp; lia|]. split.
      { intros lim Hl _. repeat constructor. lia. }
      split; [|intros _]; apply (tn_lf [] []); try constructor; discriminate.
    - destruct (Z.eq_dec y 13) as [->|N13].
      + apply Forall_cons_iff in V. destruct V as [_ V2]. cbn [List.length] in Ln.
        destruct (IH u2 ltac:(lia) V2) as (u2' & V2' & B2' & M1 & M2).
        exists (10 :: u2'). split; [constructor; auto|]. split.
        { intros lim Hl B. apply BI in B. destruct B as [_ B]. apply Forall_cons_iff in B.
          constructor; [lia|apply B2'; tauto]. }
        split.
        * rewrite !Ez. change (utf8_encode (13 :: u2)) with ("013"%char :: utf8_encode u2). apply tn_lfcr; auto.
        * intros B. apply BI in B. destruct B as [_ B]. apply Forall_cons_iff in B.
          cbn [map]. apply (tn_lfcr (map chr u2) (map chr u2')). apply M2. tauto.
      + exists (10 :: u'). split; [constructor; auto|]. split.
        { intros lim Hl B. apply BI in B. constructor; [lia|apply B'; tauto]. }
        assert (valid_cp y) as Vy by (apply Forall_cons_iff in V; tauto).
        split.
        * rewrite !Ez. apply tn_lf; auto. intros E. apply utf8_head in E; auto; try reflexivity; 
          change (ord "013") with 13 in E; congruence.
        * intros B. apply BI in B. cbn [map]. apply (tn_lf (map chr (y :: u2)) (map chr u')); [|apply N2; tauto].
          cbn [map hd_error]. intros E. injection E as E. apply (f_equal ord) in E.
          destruct B as [_ B]. apply Forall_cons_iff in B. unfold valid_cp in Vy.
          rewrite ord_chr in E by lia. change (ord "013") with 13 in E. congruence. }
  destruct (Z.eq_dec z 13) as [->|N13].
  { destruct u as [|y u2].
    - exists [10]. split; [repeat constructor; unfold valid_cp; lia|]. split.
      { intros lim Hl _. repeat constructor. lia. }
      split; [|intros _]; apply (tn_cr [] []); try constructor; discriminate.
    - destruct (Z.eq_dec y 10) as [->|N10'].
      + apply Forall_cons_iff in V. destruct V as [_ V2]. cbn [List.length] in Ln.
        destruct (IH u2 ltac:(lia) V2) as (u2' & V2' & B2' & M1 & M2).
        exists (10 :: u2'). split; [constructor; auto; unfold valid_cp; lia|]. split.
        { intros lim Hl B. apply BI in B. destruct B as [_ B]. apply Forall_cons_iff in B.
          constructor; [lia|apply B2'; tauto]. }
        split.
        * rewrite !Ez. change (utf8_encode (10 :: u2)) with ("010"%char :: utf8_encode u2).
          change (utf8_encode (10 :: u2')) with ("010"%char :: utf8_encode u2'). apply tn_crlf; auto.
        * intros B. apply BI in B. destruct B as [_ B]. apply Forall_cons_iff in B.
          cbn [map]. apply (tn_crlf (map chr u2) (map chr u2')). apply M2. tauto.
      + exists (10 :: u'). split; [constructor; auto; unfold valid_cp; lia|]. split.
        { intros lim Hl B. apply BI in B. constructor; [lia|apply B'; tauto]. }
        assert (valid_cp y) as Vy by (apply Forall_cons_iff in V; tauto).
        split.
        * rewrite !Ez. change (utf8_encode (10 :: u')) with ("010"%char :: utf8_encode u').
          apply tn_cr; auto. intros E. apply utf8_head in E; auto; try reflexivity; 
          change (ord "010") with 10 in E; congruence.
        * intros B. apply BI in B. cbn [map]. apply (tn_cr (map chr (y :: u2)) (map chr u')); [|apply N2; tauto].
          cbn [map hd_error]. intros E. injection E as E. apply (f_equal ord) in E.
          destruct B as [_ B]. apply Forall_cons_iff in B. unfold valid_cp in Vy.
          rewrite ord_chr in E by lia. change (ord "010") with 10 in E. congruence. }
  destruct ((z =? 9) || (z =? 11) || (z =? 12)) eqn:W.
  { exists (32 :: u'). split; [constructor; auto; unfold valid_cp; lia|]. split.
    { intros lim Hl B. apply BI in B. constructor; [lia|apply B'; tauto]. }
    assert (chr z = "009"%char \/ chr z = "011"%char \/ chr z = "012"%char) as W'.
    { assert (z = 9 \/ z = 11 \/ z = 12) as [->|[->| ->]] by lia; auto. }
    split.
    - rewrite Ez. change (utf8_encode (32 :: u')) with (" "%char :: utf8_encode u'). apply tn_space; auto.
    - intros B. apply BI in B. cbn [map]. apply (tn_space (chr z) (map chr u) (map chr u')); auto. apply N2; tauto. }
  exists (z :: u'). split; [constructor; auto|]. split.
  { intros lim Hl B. apply BI in B. constructor; [lia|apply B'; tauto]. }
  assert (~ In (chr z) ["009"%char; "010"%char; "011"%char; "012"%char; "013"%char]) as NI by (apply chr_plain; lia).
  split.
  - rewrite !Ez. apply tn_plain; auto.
  - intros B. apply BI in B. cbn [map]. apply tn_plain; auto. apply N2. tauto.
Qed.

(** * Text through an encoding *)

Definition enc_bytes (e : encoding) (u : list Z) : bytes :=
  match e with UTF_8 => utf8_encode u | _ => map chr u end.

Lemma below_valid_chr e u : Forall valid_cp u -> below (char_limit e) u -> e <> UTF_8 ->
  map ord (map chr u) = u /\ forallb (fun c => ord c <? enc_limit e) (map chr u) = true /\
  forallb (fun z => z <? enc_limit e) u = true.
Proof.
  intros V B N. induction V as [|z u Vz V IH]; [auto|]. apply Forall_cons_iff in B. destruct B as [Bz B].
  destruct (IH B) as (A1 & A2 & A3). unfold valid_cp in Vz.
  assert (z < 256) by (destruct e; simpl in Bz; [congruence|lia|lia]).
  cbn [map forallb]. rewrite ord_chr by lia. rewrite A1, A2, A3.
  assert (z < enc_limit e) by (destruct e; simpl in *; [congruence|lia|lia]).
  destruct (Z.ltb_spec z (enc_limit e)); [auto|lia].
Qed.

Lemma transcode_enc e u : Forall valid_cp u -> below (char_limit e) u ->
  transcode (enc_bytes e u) e = Ok (utf8_encode u).
Proof.
  intros V B. unfold transcode. destruct e; cbn [enc_bytes py_decode].
  - rewrite (utf8_decode_of u) by (apply utf8_encode_spec; auto). reflexivity.
  - destruct (below_valid_chr ISO_8859_1 u V B ltac:(discriminate)) as (A1 & A2 & A3).
    rewrite A2, A1. reflexivity.
  - destruct (below_valid_chr ASCII u V B ltac:(discriminate)) as (A1 & A2 & A3).
    rewrite A2, A1. reflexivity.
Qed.

Lemma norm_enc e u u' : Forall valid_cp u -> below (char_limit e) u ->
  text_norm (utf8_encode u) (utf8_encode u') -> (below 256 u -> text_norm (map chr u) (map chr u')) ->
  text_norm (enc_bytes e u) (enc_bytes e u').
Proof.
  intros V B N1 N2. destruct e; cbn [enc_bytes]; auto; apply N2; auto.
  eapply Forall_impl; [|exact B]. simpl. lia.
Qed.

Definition nl_sp (z : Z) : Z := if z =? 10 then 32 else z.

Lemma nts_chr z : 0 <= z < 256 -> newline_to_space (chr z) = chr (nl_sp z).
Proof.
  intros H. unfold newline_to_space, nl_sp. destruct (ascii_dec (chr z) "010") as [E|E].
  - apply (f_equal ord) in E. rewrite ord_chr in E by lia. change (ord "010") with 10 in E. subst. reflexivity.
  - destruct (Z.eqb_spec z 10) as [->|]; [contradiction E; reflexivity|reflexivity].
Qed.

Lemma nts_high c : 128 <= ord c -> newline_to_space c = c.
Proof.
  intros H. unfold newline_to_space. destruct (ascii_dec c "010") as [->|]; auto.
  change (ord "010") with 10 in H. lia.
Qed.

Lemma nts_utf8 u : Forall valid_cp u -> map newline_to_space (utf8_encode u) = utf8_encode (map nl_sp u).
Proof.
  induction 1 as [|z u Vz V IH]; auto. unfold utf8_encode in *. cbn [flat_map map]. rewrite map_app, IH. f_equal.
  destruct (Z.ltb_spec z 128) as [L|L].
  - unfold valid_cp in Vz. rewrite utf8_char_low by lia. cbn [map]. rewrite nts_chr by lia.
    rewrite utf8_char_low; auto. unfold nl_sp. destruct (z =? 10); lia.
  - assert (nl_sp z = z) as -> by (unfold nl_sp; destruct (Z.eqb_spec z 10); lia).
    destruct (utf8_char_high z Vz L) as [F _]. induction F as [|c r H F IHF]; auto.
    cbn [map]. rewrite nts_high, IHF by auto. reflexivity.
Qed.

Lemma nts_enc e u : Forall valid_cp u -> below (char_limit e) u ->
  map newline_to_space (enc_bytes e u) = enc_bytes e (map nl_sp u).
Proof.
  intros V B. destruct e; cbn [enc_bytes].
  - apply nts_utf8; auto.
  - rewrite !map_map. apply map_ext_in. intros z I. rewrite nts_chr; auto.
    unfold below in B. rewrite Forall_forall in V, B. apply V in I as Vz. apply B in I. unfold valid_cp in Vz. simpl in I. lia.
  - rewrite !map_map. apply map_ext_in. intros z I. rewrite nts_chr; auto.
    unfold below in B. rewrite Forall_forall in V, B. apply V in I as Vz. apply B in I. unfold valid_cp in Vz. simpl in I. lia.
Qed.

Lemma serialise_text_enc x u : Forall valid_cp u -> below (char_limit (c_encoding x)) u ->
  serialise_text (utf8_encode u) x = Ok (escape_text (enc_bytes (c_encoding x) u)).
Proof.
  intros V B. unfold serialise_text. destruct (c_encoding x) eqn:E; cbn [bind enc_bytes]; auto.
  - unfold py_decode. rewrite (utf8_decode_of u) by (apply utf8_encode_spec; auto). cbn [bind py_encode].
    destruct (below_valid_chr ISO_8859_1 u V B ltac:(discriminate)) as (A1 & A2 & A3). rewrite A3. reflexivity.
  - unfold py_decode. rewrite (utf8_decode_of u) by (apply utf8_encode_spec; auto). cbn [bind py_encode].
    destruct (below_valid_chr ASCII u V B ltac:(discriminate)) as (A1 & A2 & A3). rewrite A3. reflexivity.
Qed.

(** The common core: serialise, then read as Text or as SimpleText. *)
Lemma text_round x s : text_ok x s ->
  exists raw, serialise_text s x = Ok (escape_text raw) /\
    (exists s', interpret_text (escape_text raw) x = Ok s' /\ text_norm s s') /\
    (exists s', interpret_simpletext (escape_text raw) x = Ok s' /\ simpletext_norm s s').
Proof.
  intros (u & U & B). destruct (utf8_fun _ _ U) as [-> V].
  exists (enc_bytes (c_encoding x) u). split; [apply serialise_text_enc; auto|].
  destruct (norm_unicode (List.length u) u (le_n _) V) as (u' & V' & B' & N1 & N2).
  assert (33 <= char_limit (c_encoding x)) as L by (destruct (c_encoding x); simpl; lia).
  pose proof (B' _ L B) as Bu'.
  pose proof (norm_enc _ _ _ V B N1 N2) as N.
  split.
  - exists (utf8_encode u'). split; auto. unfold interpret_text.
    rewrite (text_norm_fun _ _ (C13_text_proof _) _ N). apply transcode_enc; auto.
  - exists (utf8_encode (map nl_sp u')). split; [|exists (utf8_encode u'); split; auto; symmetry; apply nts_utf8; auto].
    unfold interpret_simpletext. destruct (C13_simpletext_proof (enc_bytes (c_encoding x) u)) as (t & T & ->).
    rewrite (text_norm_fun _ _ T _ N), nts_enc by auto. apply transcode_enc.
    + apply Forall_map. eapply Forall_impl; [|exact V']. unfold valid_cp, nl_sp. intros z Hz. destruct (z =? 10); lia.
    + apply Forall_map. eapply Forall_impl; [|exact Bu']. unfold nl_sp. intros z Hz. destruct (z =? 10); lia.
Qed.

(** * Typed values *)

Lemma serialise_point_ok x p : 1 <= c_size x <= 25 -> on_board (c_size x) p ->
  exists s, serialise_point p x = Ok s /\ names_point (c_size x) s p.
Proof.
  intros Hs [R C]. unfold serialise_point. apply serialise_point_names; auto; lia.
Qed.

Lemma names_good_value size s p : names_point size s p -> size <= 25 -> good_value s /\ no_bare_colon s.
Proof.
  intros (a & b & -> & R & C & A & B) L. change (ord "a") with 97 in *.
  assert (a <> char_bs /\ b <> char_bs /\ a <> char_colon /\ b <> char_colon) as (D1 & D2 & D3 & D4).
  { repeat split; intros ->; unfold char_bs, char_colon in *; change (ord "\") with 92 in *; change (ord ":") with 58 in *; lia. }
  assert (a <> "]"%char /\ b <> "]"%char) as (D5 & D6).
  { split; intros ->; change (ord "]") with 93 in *; lia. }
  split.
  - apply gv_plain; auto. apply gv_plain; auto. constructor.
  - apply nc_plain; auto. apply nc_plain; auto. constructor.
Qed.

Lemma parse_compose_first a b : no_bare_colon a -> parse_compose (a ++ [char_colon] ++ b) = (a, Some b).
Proof. intros H. unfold parse_compose. change (a ++ [char_colon] ++ b) with (a ++ ":"%char :: b). rewrite (split_first a b H). reflexivity. Qed.

Lemma mapm_forall2 {A B} (f : A -> res B) (P : A -> B -> Prop) l :
  Forall (fun a => exists b, f a = Ok b /\ P a b) l -> exists l', mapm f l = Ok l' /\ Forall2 P l l'.
Proof.
  induction 1 as [|a l (b & E & H) F (l' & IH & G)]; [exists []; split; auto|].
  exists (b :: l'). cbn [mapm]. rewrite E. cbn [bind]. rewrite IH. split; auto.
Qed.

Lemma str_int_no_colon n : no_bare_colon (str_int n) /\ good_value (str_int n).
Proof.
  assert (forall s, forallb (fun c => is_digit c || ceqb c "-"%char) s = true -> no_bare_colon s /\ good_value s) as G.
  { induction s as [|c s IH]; simpl; intros H; [split; constructor|].
    apply andb_true_iff in H. destruct H as [H1 H2]. destruct (IH H2) as [I1 I2].
    assert (c <> "\"%char /\ c <> ":"%char /\ c <> "]"%char) as (D1 & D2 & D3).
    { repeat split; intros ->; discriminate. }
    split; [apply nc_plain|apply gv_plain]; auto. }
  apply G. unfold str_int.
  assert (forall z, 0 <= z -> forallb (fun c => is_digit c || ceqb c "-"%char) (str_nonneg (int_fuel z) z) = true) as D.
  { intros z Hz. destruct (int_fuel_enough (int_fuel z) z Hz ltac:(unfold int_fuel; lia)) as (_ & H & _).
    rewrite forallb_forall in *. intros c I. rewrite H; auto. }
  destruct (Z.ltb_spec n 0); [simpl; apply D; lia|apply D; lia].
Qed.

Lemma str_int_nonempty n : str_int n <> [].
Proof.
  intros E. pose proof (py_int_str n) as H. rewrite E in H. discriminate.
Qed.

Definition typed_round (x : context) (t : ptype) (v : pvalue) : Prop :=
  exists raw, serialise_as_type t v x = Ok raw /\ raw <> [] /\ Forall good_value raw /\
    exists v', interpret_as_type t raw x = Ok v' /\ reads_back t v v'.

Lemma single_round x t v s v' : uses_list t = false -> serialise_single t v x = Ok s -> good_value s ->
  interpret_single t s x = Ok v' -> reads_back t v v' -> typed_round x t v.
Proof.
  intros U E G I R. exists [s]. unfold serialise_as_type, interpret_as_type. rewrite U, E. cbn [bind].
  split; auto. split; [discriminate|]. split; auto. exists v'. split; auto.
Qed.

Lemma list_round x t v raw v' : uses_list t = true -> serialise_list t v x = Ok raw -> raw <> [] -> Forall good_value raw ->
  raw <> [[]] -> interpret_list t raw x = Ok v' -> reads_back t v v' -> typed_round x t v.
Proof.
  intros U E N G NE I R. exists raw. unfold serialise_as_type, interpret_as_type. rewrite U, E. cbn [bind].
  destruct raw as [|r0 raw]; [congruence|]. split; auto. split; auto. split; auto. exists v'.
  split; auto. destruct r0; auto. destruct raw; auto. exfalso; apply NE; reflexivity.
Qed.

Lemma Forall_sort_bytes (P : bytes -> Prop) l : Forall P l -> Forall P (sort_bytes l).
Proof. rewrite !Forall_forall. intros H a I. apply H. apply (proj1 (sort_bytes_In a l)). auto. Qed.

Lemma point_list_round x l : 1 <= c_size x <= 25 -> Forall (on_board (c_size x)) l ->
  exists raw l', serialise_point_list l x = Ok raw /\ Forall good_value raw /\ (l <> [] -> raw <> []) /\
    raw <> [[]] /\ (l = [] -> raw = []) /\
    interpret_point_list raw x = Ok l' /\ same_points l l' /\ NoDup l'.
Proof.
  intros Hs H.
  destruct (mapm_forall2 (fun p => serialise_point p x) (fun p s => names_point (c_size x) s p) l) as (r & Er & F).
  { eapply Forall_impl; [|exact H]. intros p Hp. apply serialise_point_ok; auto. }
  assert (forall s, In s r -> exists p, In p l /\ names_point (c_size x) s p) as In1.
  { clear Er. induction F as [|p s l r N F IH]; [contradiction|]. intros s' [<-|I].
    - exists p. split; [left|]; auto.
    - apply Forall_cons_iff in H. destruct (IH (proj2 H) s' I) as (p' & I' & N'). exists p'. split; [right|]; auto. }
  assert (forall p, In p l -> exists s, In s r /\ names_point (c_size x) s p) as In2.
  { clear Er In1. induction F as [|p s l r N F IH]; [contradiction|]. intros p' [<-|I].
    - exists s. split; [left|]; auto.
    - apply Forall_cons_iff in H. destruct (IH (proj2 H) p' I) as (s' & I' & N'). exists s'. split; [right|]; auto. }
  exists (sort_bytes r). pose proof (C17_interpret_proof (sort_bytes r) x) as C.
  destruct (interpret_point_list (sort_bytes r) x) as [l'|e].
  2:{ exfalso. destruct C as (_ & v & I & V). apply (proj1 (sort_bytes_In v r)) in I. destruct (In1 v I) as (p & _ & N).
      eapply V. apply vp_point; eauto. }
  exists l'. unfold serialise_point_list. rewrite Er. cbn [bind]. split; auto.
  destruct C as (ND & (Ps & FP & HP) & _).
  split; [|split; [|split; [|split; [|split; [|split]]]]]; auto.
  - apply Forall_sort_bytes. apply Forall_forall. intros s I. destruct (In1 s I) as (p & _ & N).
    eapply names_good_value; eauto. lia.
  - intros Nl E. apply sort_bytes_nil in E. subst. inversion F; subst. congruence.
  - intros E. assert (In [] (sort_bytes r)) as I by (rewrite E; left; auto).
    apply (proj1 (sort_bytes_In _ _)) in I. destruct (In1 _ I) as (p & _ & (a & b & X & _)). discriminate.
  - intros ->. inversion F; subst. reflexivity.
  - intros p. rewrite HP. split.
    + intros I. destruct (In2 p I) as (s & Is & N). apply (proj2 (sort_bytes_In s r)) in Is.
      clear HP. induction FP as [|v P vs Ps V FP IH]; [contradiction|]. destruct Is as [->|Is].
      * left. inversion V as [v p' N'|v a b t lf b' rg E N1 N2 L1 L2]; subst.
        -- apply (names_point_fun _ _ _ _ N N').
        -- exfalso. eapply names_no_colon; [exact N|]. apply in_app_iff. right. left. reflexivity.
      * right. apply IH; auto.
    + intros EX.
      assert (exists s, In s (sort_bytes r) /\ exists P, value_points (c_size x) s P /\ P p) as (s & Is & P & V & Pp).
      { clear HP. induction FP as [|v P vs Ps V FP IH]; [inversion EX|]. apply Exists_cons in EX. destruct EX as [Pp|EX].
        - exists v. split; [left; auto|]. eauto.
        - destruct (IH EX) as (s & Is & R). exists s. split; [right; auto|auto]. }
      apply (proj1 (sort_bytes_In s r)) in Is. destruct (In1 s Is) as (q & Iq & N).
      inversion V as [v p' N'|v a b t lf b' rg E N1 N2 L1 L2]; subst.
      * pose proof (names_point_fun _ _ _ _ N' N). cbv beta in Pp. congruence.
      * exfalso. eapply names_no_colon; [exact N|]. apply in_app_iff. right. left. reflexivity.
Qed.

Lemma span_digits_app a b : forallb is_digit a = true ->
  match b with c :: _ => is_digit c = false | [] => True end -> span_digits (a ++ b) = (a, b).
Proof.
  intros H N. induction a as [|c a IH]; simpl in *.
  - destruct b as [|c b]; auto. simpl. rewrite N. reflexivity.
  - apply andb_true_iff in H. destruct H as [H1 H2]. rewrite H1, IH by auto. reflexivity.
Qed.

Lemma digits_val_app a b : digits_val (a ++ b) = digits_val a * 10 ^ Z.of_nat (List.length b) + digits_val b.
Proof.
  induction b as [|c b IH] using rev_ind.
  - rewrite app_nil_r. cbn [List.length]. change (digits_val []) with 0. simpl Z.of_nat. rewrite Z.pow_0_r. lia.
  - rewrite app_assoc, !digits_val_snoc, IH, app_length. cbn [List.length].
    rewrite Nat2Z.inj_add. simpl (Z.of_nat 1). rewrite Z.pow_add_r by lia. lia.
Qed.

Lemma pow10_big m : Z.abs m < 10 ^ 15 -> forall k, ((2 ^ 1024 - 2 ^ 970) * 10 ^ Z.of_nat k <=? Z.abs m) = false.
Proof.
  intros H k. apply Z.leb_gt. assert (1 <= 10 ^ Z.of_nat k) as P by (pose proof (Z.pow_pos_nonneg 10 (Z.of_nat k)); lia).
  assert (10 ^ 15 <= 2 ^ 1024 - 2 ^ 970) as Q by (vm_compute; discriminate). nia.
Qed.

Lemma digits_sign s : s <> [] -> forallb is_digit s = true -> forall r, parse_sign (s ++ r) = (false, s ++ r).
Proof.
  intros N D r. destruct s as [|c s]; [congruence|]. simpl in D. apply andb_true_iff in D. destruct D as [D _].
  simpl. destruct (ceqb_spec c "-"%char) as [->|]; [discriminate|].
  destruct (ceqb_spec c "+"%char) as [->|]; [discriminate|]. reflexivity.
Qed.

(** A decimal literal: sign, integer digits, and optionally a point and more digits. *)
Lemma py_float_dec (neg : bool) ip fp : ip <> [] -> forallb is_digit ip = true -> forallb is_digit fp = true ->
  py_float ((if neg then str "-" else []) ++ ip ++ match fp with [] => [] | _ => str "." ++ fp end) =
  Ok (normalise_dec (if neg then - digits_val (ip ++ fp) else digits_val (ip ++ fp)) (List.length fp)).
Proof.
  intros N D1 D2. unfold py_float.
  set (tl := match fp with [] => [] | _ => str "." ++ fp end).
  assert (forallb (fun c => negb (is_space c)) ((if neg then str "-" else []) ++ ip ++ tl) = true) as NS.
  { rewrite !forallb_app. rewrite (digits_no_space ip D1). subst tl.
    destruct neg, fp as [|c fp]; try reflexivity; cbn [str list_ascii_of_string app forallb];
    change (forallb (fun c => negb (is_space c)) (c :: fp)) with (forallb (fun c => negb (is_space c)) (c :: fp));
    rewrite ?andb_true_l;
    pose proof (digits_no_space _ D2) as X; simpl in X; rewrite X; reflexivity. }
  rewrite strip_clean by exact NS.
  assert (parse_sign ((if neg then str "-" else []) ++ ip ++ tl) = (neg, ip ++ tl)) as ->.
  { destruct neg; [reflexivity|]. cbn [app]. apply digits_sign; auto. }
  rewrite span_digits_app; auto.
  2:{ subst tl. destruct fp; simpl; auto. }
  match goal with |- (let (_, _) := ?t in _) = _ => assert (t = (fp, [])) as -> end.
  { subst tl. destruct fp as [|c fp]; [reflexivity|]. cbn [str list_ascii_of_string app].
    change (ceqb "." ".") with true. cbv iota. pose proof (span_digits_app (c :: fp) [] D2 I) as X.
    rewrite app_nil_r in X. exact X. }
  destruct (ip ++ fp) as [|d ds] eqn:E; [apply app_eq_nil in E; tauto|]. cbn [parse_exponent].
  f_equal. destruct fp as [|c fp].
  - simpl. rewrite Z.mul_1_r. reflexivity.
  - destruct (Z.leb_spec 0 (0 - Z.of_nat (List.length (c :: fp)))) as [L|L]; [cbn [List.length] in L; lia|].
    f_equal. lia.
Qed.

Lemma str_int_abs n : str_int n = (if n <? 0 then str "-" else []) ++ str_int (Z.abs n).
Proof.
  unfold str_int. destruct (Z.ltb_spec n 0).
  - destruct (Z.ltb_spec (Z.abs n) 0); [lia|]. replace (Z.abs n) with (- n) by lia. reflexivity.
  - destruct (Z.ltb_spec (Z.abs n) 0); [lia|]. replace (Z.abs n) with n by lia. reflexivity.
Qed.

Lemma interpret_real_int n : Z.abs n < 10 ^ 15 -> interpret_real (str_int n) = Ok (n, O).
Proof.
  intros H. destruct (str_int_nonneg (Z.abs n) ltac:(lia)) as (V & D & N).
  unfold interpret_real. rewrite str_int_abs.
  pose proof (py_float_dec (n <? 0) (str_int (Z.abs n)) [] N D eq_refl) as P. rewrite !app_nil_r in P.
  rewrite P. cbn [List.length normalise_dec bind]. rewrite V.
  assert ((if n <? 0 then - Z.abs n else Z.abs n) = n) as -> by (destruct (Z.ltb_spec n 0); lia).
  rewrite pow10_big by auto. reflexivity.
Qed.

Lemma zfill_exact k z : 0 <= z < 10 ^ Z.of_nat k -> (1 <= k)%nat ->
  List.length (zfill k (str_int z)) = k /\ forallb is_digit (zfill k (str_int z)) = true /\ digits_val (zfill k (str_int z)) = z.
Proof.
  intros H K. destruct (str_int_nonneg z ltac:(lia)) as (V & D & N).
  pose proof (str_int_length z k H K) as L.
  split; [unfold zfill; rewrite app_length, repeat_length; lia|]. split; [apply zfill_digits; auto|].
  rewrite zfill_val. auto.
Qed.

Lemma mod10_abs m : m mod 10 <> 0 -> forall k, normalise_dec m (S k) = (m, S k).
Proof. intros H k. cbn [normalise_dec]. destruct (Z.eqb_spec (m mod 10) 0); [contradiction|reflexivity]. Qed.

Lemma digits_good s : forallb is_digit s = true -> good_value s.
Proof.
  induction s as [|c s IH]; simpl; intros H; [constructor|]. apply andb_true_iff in H. destruct H as [H1 H2].
  apply gv_plain; auto; intros ->; discriminate.
Qed.

Lemma real_round m k : Z.abs m < 10 ^ 15 -> k = O \/ m mod 10 <> 0 ->
  good_value (serialise_real m k) /\
  exists m' k', interpret_real (serialise_real m k) = Ok (m', k') /\
    reads_back PT_real (VReal m k) (VReal m' k').
Proof.
  intros H Hk. destruct k as [|k].
  - cbn [serialise_real]. split; [apply str_int_no_colon|]. exists m, O. split; [apply interpret_real_int; auto|].
    cbn [reads_back]. change (10 ^ Z.of_nat 0) with 1. destruct (Z.ltb_spec (Z.abs m * 10000) 1); [|auto].
    split; auto. lia.
  - destruct Hk as [Hk|Hk]; [discriminate|]. cbn [serialise_real reads_back].
    destruct (Z.ltb_spec (Z.abs m * 10000) (10 ^ Z.of_nat (S k))) as [L|L].
    + split; [apply good_value_valid; reflexivity|]. exists 0, O. split; [|auto]. apply (interpret_real_int 0). lia.
    + set (P := 10 ^ Z.of_nat (S k)) in *. assert (0 < P) as PP by (apply Z.pow_pos_nonneg; lia).
      pose proof (Z.mod_pos_bound (Z.abs m) P PP) as MB.
      pose proof (Z.div_mod (Z.abs m) P ltac:(lia)) as DM.
      assert (0 <= Z.abs m / P) as DP by (apply Z.div_pos; lia).
      destruct (str_int_nonneg (Z.abs m / P) DP) as (V1 & D1 & N1).
      destruct (zfill_exact (S k) (Z.abs m mod P) MB ltac:(lia)) as (L2 & D2 & V2).
      set (ip := str_int (Z.abs m / P)) in *. set (fp := zfill (S k) (str_int (Z.abs m mod P))) in *.
      split.
      * apply good_value_app; [destruct (m <? 0); apply good_value_valid; reflexivity|].
        apply good_value_app; [apply digits_good; auto|].
        apply good_value_app; [apply good_value_valid; reflexivity|apply digits_good; auto].
      * exists m, (S k). split; [|auto]. unfold interpret_real.
        pose proof (py_float_dec (m <? 0) ip fp N1 D1 D2) as PF.
        assert (match fp with [] => [] | _ => str "." ++ fp end = str "." ++ fp) as EF.
        { destruct fp; [discriminate|reflexivity]. }
        rewrite EF in PF. rewrite PF. rewrite digits_val_app, V1, V2, L2. fold P.
        assert ((if m <? 0 then - (Z.abs m / P * P + Z.abs m mod P) else Z.abs m / P * P + Z.abs m mod P) = m) as ->.
        { destruct (Z.ltb_spec m 0); lia. }
        rewrite mod10_abs by auto. cbn [bind]. rewrite pow10_big by auto. reflexivity.
Qed.

Lemma C18_proof x t v : 1 <= c_size x <= 25 -> value_ok x t v -> typed_round x t v.
Proof.
  intros Hs H. destruct t; cbn [value_ok] in H.
  - eapply single_round; try reflexivity; constructor.
  - destruct v; try contradiction. eapply single_round; try reflexivity.
    + apply str_int_no_colon.
    + cbn [interpret_single]. unfold interpret_number, serialise_number. rewrite py_int_str. reflexivity.
  - destruct v as [| |n|m k| | | | | | | |]; try contradiction.
    + eapply single_round; try reflexivity; [apply str_int_no_colon|].
      cbn [interpret_single serialise_real]. rewrite interpret_real_int by auto. reflexivity.
    + destruct H as [H1 H2]. destruct (real_round m k H1 H2) as (G & m' & k' & E & R).
      eapply single_round; try reflexivity; [exact G| |exact R]. cbn [interpret_single]. rewrite E. reflexivity.
  - destruct v; try contradiction. destruct H as [-> | ->]; (eapply single_round; try reflexivity;
    apply good_value_valid; reflexivity).
  - destruct v as [| | | |c| | | | | | |]; try contradiction. destruct c; (eapply single_round; try reflexivity;
    apply good_value_valid; reflexivity).
  - destruct v as [| | | | |s| | | | | |]; try contradiction. destruct (text_round x s H) as (raw & E & _ & (s' & I & N)).
    eapply single_round; try reflexivity; [exact E|apply C13_valid_proof| |].
    + cbn [interpret_single]. rewrite I. reflexivity.
    + exact N.
  - destruct v as [| | | | |s| | | | | |]; try contradiction. destruct (text_round x s H) as (raw & E & (s' & I & N) & _).
    eapply single_round; try reflexivity; [exact E|apply C13_valid_proof| |].
    + cbn [interpret_single]. rewrite I. reflexivity.
    + exact N.
  - destruct v as [| | | | | |p| | | | |]; try contradiction. destruct (serialise_point_ok x p Hs H) as (s & E & N).
    eapply single_round; try reflexivity; [exact E|eapply names_good_value; eauto; lia|].
    + cbn [interpret_single]. apply interpret_point_ok in N. rewrite N. reflexivity.
  - destruct v as [| | | | | |p| | | | |]; try contradiction.
    + destruct (C16_round_proof (c_size x) None Hs) as (s & E & I); [discriminate|].
      eapply single_round; try reflexivity; [exact E| |].
      * unfold serialise_go_point in E. destruct (negb _); [discriminate|]. injection E as <-.
        destruct (c_size x <=? 19); apply good_value_valid; reflexivity.
      * cbn [interpret_single]. rewrite I. reflexivity.
    + destruct (serialise_point_ok x p Hs H) as (s & E & N).
      eapply single_round; try reflexivity; [exact E|eapply names_good_value; eauto; lia|].
      * cbn [interpret_single]. apply interpret_names in N. rewrite N. reflexivity.
  - destruct v as [| | | | | | |l| | | |]; try contradiction. destruct H as [Nl H].
    destruct (point_list_round x l Hs H) as (raw & l' & E & G & N1 & N2 & _ & I & S & ND).
    eapply list_round; try reflexivity; eauto.
    + cbn [interpret_list]. rewrite I. reflexivity.
    + split; auto.
  - destruct v as [| | | | | | |l| | | |]; try contradiction.
    destruct (point_list_round x l Hs H) as (raw & l' & E & G & N1 & N2 & N3 & I & S & ND).
    destruct l as [|p l].
    + rewrite (N3 eq_refl) in *. exists [[]]. unfold serialise_as_type. cbn [uses_list serialise_list].
      rewrite E. cbn [bind allows_empty_list]. split; auto. split; [discriminate|].
      split; [repeat constructor|]. exists (VPoints []). split; [reflexivity|]. split; [intros q; tauto|constructor].
    + eapply list_round; try reflexivity; eauto.
      * apply N1. discriminate.
      * cbn [interpret_list]. rewrite I. reflexivity.
      * split; auto.
  - destruct v as [| | | | | | | |a b| | |]; try contradiction. destruct H as [Ha Hb].
    destruct (text_round x a Ha) as (ra & Ea & _ & (a' & Ia & Na)).
    destruct (text_round x b Hb) as (rb & Eb & _ & (b' & Ib & Nb)).
    destruct (C14_proof ra (escape_text rb)) as (first & P & _ & SV & GV).
    eapply single_round; try reflexivity.
    + cbn [serialise_single]. unfold serialise_AP, serialise_simpletext. cbn [fst snd]. rewrite Ea. cbn [bind].
      rewrite Eb. reflexivity.
    + apply GV, C13_valid_proof.
    + cbn [interpret_single]. unfold interpret_AP. rewrite P. 
      assert (interpret_simpletext first x = Ok a') as ->.
      { unfold interpret_simpletext in *. rewrite SV. exact Ia. }
      cbn [bind]. rewrite Ib. reflexivity.
    + split; auto.
  - destruct v as [| | | | | | | | |l| |]; try contradiction. destruct H as [Nl H].
    destruct (mapm_forall2 (fun v => serialise_arrow v x)
      (fun v s => good_value s /\ s <> [] /\ interpret_arrow s x = Ok v) l) as (raw & E & F).
    { eapply Forall_impl; [|exact H]. intros [p q] [Hp Hq]. cbn [fst snd] in *.
      destruct (serialise_point_ok x p Hs Hp) as (sp & Ep & Np).
      destruct (serialise_point_ok x q Hs Hq) as (sq & Eq & Nq).
      exists (sp ++ [char_colon] ++ sq). unfold serialise_arrow. cbn [fst snd]. rewrite Ep. cbn [bind]. rewrite Eq.
      split; auto. destruct (names_good_value _ _ _ Np ltac:(lia)) as [Gp Cp].
      destruct (names_good_value _ _ _ Nq ltac:(lia)) as [Gq _].
      split; [apply good_value_app; auto; apply gv_plain; auto; discriminate|].
      split; [intros X; apply app_eq_nil in X; destruct X; discriminate|].
      unfold interpret_arrow. rewrite parse_compose_first by auto.
      apply interpret_point_ok in Np, Nq. rewrite Np. cbn [bind]. rewrite Nq. reflexivity. }
    assert (raw <> []) as NR by (intros ->; inversion F; subst; congruence).
    assert (mapm (fun s => interpret_arrow s x) raw = Ok l) as I.
    { clear -F. induction F as [|v s l raw (_ & _ & E) F IH]; auto. cbn [mapm]. rewrite E. cbn [bind]. rewrite IH. reflexivity. }
    eapply list_round; try reflexivity; eauto.
    + clear -F. induction F as [|v s l raw (G & _) F IH]; auto.
    + intros ->. inversion F as [|? ? ? ? (_ & X & _) _]; subst. congruence.
    + cbn [interpret_list]. unfold interpret_ARLN_list. rewrite I. reflexivity.
  - destruct v as [| | | | | | | | | |n s|]; try contradiction.
    + eapply single_round; try reflexivity. constructor.
    + destruct (text_round x s H) as (raw & E & _ & (s' & I & N)).
      destruct (str_int_no_colon n) as [C G].
      eapply single_round; try reflexivity.
      * cbn [serialise_single serialise_FG]. unfold serialise_simpletext. rewrite E. reflexivity.
      * apply good_value_app; auto. apply gv_plain; try discriminate. apply C13_valid_proof.
      * cbn [interpret_single]. unfold interpret_FG.
        destruct (bytes_eqb_spec (str_int n ++ [char_colon] ++ escape_text raw) []) as [X|_].
        { exfalso. apply app_eq_nil in X. destruct X; discriminate. }
        rewrite parse_compose_first by auto. rewrite py_int_str. cbn [bind]. rewrite I. reflexivity.
      * split; auto.
  - destruct v as [| | | | | | | | | | |l]; try contradiction. destruct H as [Nl H].
    destruct (mapm_forall2 (fun v => serialise_label v x)
      (fun v s => good_value s /\ s <> [] /\ exists t, interpret_label s x = Ok (fst v, t) /\ simpletext_norm (snd v) t) l) as (raw & E & F).
    { eapply Forall_impl; [|exact H]. intros [p t] [Hp Ht]. cbn [fst snd] in *.
      destruct (serialise_point_ok x p Hs Hp) as (sp & Ep & Np).
      destruct (text_round x t Ht) as (rt & Et & _ & (t' & It & Nt)).
      exists (sp ++ [char_colon] ++ escape_text rt). unfold serialise_label, serialise_simpletext. cbn [fst snd]. rewrite Ep. cbn [bind]. rewrite Et.
      split; auto. destruct (names_good_value _ _ _ Np ltac:(lia)) as [Gp Cp].
      split; [apply good_value_app; auto; apply gv_plain; try discriminate; apply C13_valid_proof|].
      split; [intros X; apply app_eq_nil in X; destruct X; discriminate|].
      exists t'. split; auto.
      unfold interpret_label. rewrite parse_compose_first by auto.
      apply interpret_point_ok in Np. rewrite Np. cbn [bind]. rewrite It. reflexivity. }
    assert (raw <> []) as NR by (intros ->; inversion F; subst; congruence).
    assert (exists l', mapm (fun s => interpret_label s x) raw = Ok l' /\
      Forall2 (fun a b => fst a = fst b /\ simpletext_norm (snd a) (snd b)) l l') as (l' & I & R).
    { clear -F. induction F as [|v s l raw (_ & _ & t & E & N) F (l' & IH & R)]; [exists []; split; auto|].
      exists ((fst v, t) :: l'). cbn [mapm]. rewrite E. cbn [bind]. rewrite IH. split; auto. }
    eapply list_round; try reflexivity; eauto.
    + clear -F. induction F as [|v s l raw (G & _) F IH]; auto.
    + intros ->. inversion F as [|? ? ? ? (_ & X & _) _]; subst. congruence.
    + cbn [interpret_list]. unfold interpret_LB_list. rewrite I. reflexivity.
    + exact R.
Qed.
