(** Proofs about texts from engines, engine descriptions and player checks (C58, C59). *)
From Verif Require Import Base Bytes PyStr Dict SgfPropsModel SgfPropsSpec SgfValueProofs SettingsProofs GtpModel GtpProofs
  ControllerModel ControllerSpec ControllerProofs GameSgfSpec GameSgfProofs EngineModel EngineSpec.
Open Scope Z_scope.

(** ** UTF-8 *)

Lemma head_of z c r : utf8_of z c -> utf8_head (c ++ r) = Some (z, r).
Proof.
  intros [z' a H A|z' a b h l H E L A B|z' a b c' h m l H E M L A B C
         |z' a b c' d h k m l H E K M L A B C D]; cbn [app utf8_head]; unfold is_cont, cont_bits;
    rewrite ?A, ?B, ?C, ?D.
  - destruct (Z.ltb_spec z' 128); [|lia]. reflexivity.
  - destruct (Z.ltb_spec (192 + h) 128); [lia|]. destruct (Z.ltb_spec (192 + h) 194); [lia|].
    destruct ((128 <=? 128 + l) && (128 + l <? 192)) eqn:X; [|lia]. cbn [negb].
    destruct (Z.ltb_spec (192 + h) 224); [|lia]. f_equal. f_equal. lia.
  - destruct (Z.ltb_spec (224 + h) 128); [lia|]. destruct (Z.ltb_spec (224 + h) 194); [lia|].
    destruct ((128 <=? 128 + m) && (128 + m <? 192)) eqn:X; [|lia]. cbn [negb].
    destruct (Z.ltb_spec (224 + h) 224); [lia|].
    destruct ((128 <=? 128 + l) && (128 + l <? 192)) eqn:X2; [|lia]. cbn [negb].
    destruct (Z.ltb_spec (224 + h) 240); [|lia]. cbv zeta.
    match goal with |- context [if ?e <? 2048 then _ else _] => replace e with z' by lia end.
    destruct (Z.ltb_spec z' 2048); [lia|]. reflexivity.
  - destruct (Z.ltb_spec (240 + h) 128); [lia|]. destruct (Z.ltb_spec (240 + h) 194); [lia|].
    destruct ((128 <=? 128 + k) && (128 + k <? 192)) eqn:X; [|lia]. cbn [negb].
    destruct (Z.ltb_spec (240 + h) 224); [lia|].
    destruct ((128 <=? 128 + m) && (128 + m <? 192)) eqn:X2; [|lia]. cbn [negb].
    destruct (Z.ltb_spec (240 + h) 240); [lia|].
    destruct ((128 <=? 128 + l) && (128 + l <? 192)) eqn:X3; [|lia]. cbn [negb]. cbv zeta.
    match goal with |- context [(?e <? 65536)] => replace e with z' by lia end.
    destruct (Z.ltb_spec z' 65536); [lia|]. destruct (Z.ltb_spec 1114111 z'); [lia|]. reflexivity.
Qed.

Lemma head_some s z r : utf8_head s = Some (z, r) -> exists c, s = c ++ r /\ utf8_of z c.
Proof.
  destruct s as [|c0 r0]; [discriminate|]. cbn [utf8_head]. pose proof (ord_range c0).
  destruct (Z.ltb_spec (ord c0) 128).
  { intros E. injection E as <- <-. exists [c0]. split; [reflexivity|]. constructor; auto. lia. }
  destruct (Z.ltb_spec (ord c0) 194); [discriminate|].
  destruct r0 as [|c1 r1]; [discriminate|]. unfold is_cont, cont_bits.
  destruct ((128 <=? ord c1) && (ord c1 <? 192)) eqn:X1; cbn [negb]; [|discriminate].
  destruct (Z.ltb_spec (ord c0) 224).
  { intros E. injection E as <- <-. exists [c0; c1]. split; [reflexivity|].
    eapply u8_2 with (h := ord c0 - 192) (l := ord c1 - 128); lia. }
  destruct r1 as [|c2 r2]; [discriminate|].
  destruct ((128 <=? ord c2) && (ord c2 <? 192)) eqn:X2; cbn [negb]; [|discriminate].
  destruct (Z.ltb_spec (ord c0) 240).
  { cbv zeta. destruct (Z.ltb_spec ((ord c0 - 224) * 4096 + (ord c1 - 128) * 64 + (ord c2 - 128)) 2048); [discriminate|].
    intros E. injection E as <- <-. exists [c0; c1; c2]. split; [reflexivity|].
    eapply u8_3 with (h := ord c0 - 224) (m := ord c1 - 128) (l := ord c2 - 128); lia. }
  destruct r2 as [|c3 r3]; [discriminate|].
  destruct ((128 <=? ord c3) && (ord c3 <? 192)) eqn:X3; cbn [negb]; [|discriminate]. cbv zeta.
  match goal with |- context [(?e <? 65536)] => set (y := e) end.
  destruct (Z.ltb_spec y 65536); [discriminate|]. destruct (Z.ltb_spec 1114111 y); [discriminate|]. cbn [orb].
  intros E. injection E as <- <-. exists [c0; c1; c2; c3]. split; [reflexivity|].
  eapply u8_4 with (h := ord c0 - 240) (k := ord c1 - 128) (m := ord c2 - 128) (l := ord c3 - 128); subst y; lia.
Qed.

Lemma utf8_of_nonempty z c : utf8_of z c -> exists b k, c = b :: k.
Proof. destruct 1; eauto. Qed.

Lemma utf8_is u s : utf8 u s -> is_utf8 s.
Proof.
  intros U. exists u. split; [exact U|]. pose proof (proj2 (utf8_fun _ _ U)) as F.
  apply Forall_forall. intros z I. rewrite Forall_forall in F. specialize (F z I). unfold valid_cp in F. lia.
Qed.

Lemma is_utf8_decode s : is_utf8 s <-> exists u, utf8_decode s = Some u.
Proof.
  split.
  - intros (u & U & _). exists u. apply utf8_decode_of. exact U.
  - intros (u & E). apply (utf8_is u). eapply (utf8_decode_sound (List.length s)); [lia|exact E].
Qed.

Lemma char_utf8 z c : utf8_of z c -> is_utf8 c.
Proof. intros H. apply (utf8_is [z]). rewrite <- (app_nil_r c). constructor; [exact H|constructor]. Qed.

Lemma repaired_utf8 s t : repaired s t -> is_utf8 t.
Proof.
  induction 1 as [|z c s t U N R IH|c s t U R IH|b bad s t L B R IH].
  - apply ascii_utf8. reflexivity.
  - apply is_utf8_app; [eapply char_utf8; eauto|exact IH].
  - change (question :: t) with ([question] ++ t). apply is_utf8_app; [apply ascii_utf8; reflexivity|exact IH].
  - change (question :: t) with ([question] ++ t). apply is_utf8_app; [apply ascii_utf8; reflexivity|exact IH].
Qed.

Lemma repaired_nonempty s t : repaired s t -> s <> [] -> t <> [].
Proof.
  intros R N. destruct R as [|z c s t U _ R|c s t U R|b bad s t L B R]; [congruence| |discriminate|discriminate].
  destruct (utf8_of_nonempty _ _ U) as (b & k & ->). discriminate.
Qed.

Section Sanitise.
Variable more : bytes -> nat.

Lemma replace_repaired fuel : forall s, (List.length s <= fuel)%nat ->
  repaired s (utf8_encode (map (fun z => if z =? 65533 then 63 else z) (decode_replace more fuel s))).
Proof.
  induction fuel as [|f IH]; intros s L.
  - destruct s; [constructor|cbn in L; lia].
  - destruct s as [|b s']; [constructor|]. cbn [decode_replace]. destruct (utf8_head (b :: s')) as [[z r]|] eqn:H.
    + destruct (head_some _ _ _ H) as (c & E & U). rewrite E. destruct (utf8_of_nonempty _ _ U) as (b' & k & Ec).
      assert (List.length r <= f)%nat as Lr. { rewrite E, Ec, app_length in L. cbn in L. lia. }
      specialize (IH r Lr). cbn [map]. unfold utf8_encode in *. cbn [flat_map]. destruct (Z.eqb_spec z 65533) as [->|N].
      * change (utf8_char 63) with [question]. cbn [app]. apply rp_mark; assumption.
      * rewrite <- (utf8_of_fun _ _ _ U (utf8_char_spec z (utf8_of_valid _ _ U))). apply (rp_char z); assumption.
    + cbn [map]. unfold utf8_encode in *. cbn [flat_map]. change (utf8_char (if 65533 =? 65533 then 63 else 65533)) with [question]. cbn [app].
      cbn [skipn]. set (n := Nat.min 3 (more (b :: s'))). rewrite <- (firstn_skipn n s') at 1.
      change (b :: firstn n s' ++ skipn n s') with ((b :: firstn n s') ++ skipn n s').
      apply rp_bad.
      * rewrite firstn_length. unfold n. lia.
      * intros z c r U E. change ((b :: firstn n s') ++ skipn n s') with (b :: (firstn n s' ++ skipn n s')) in E.
        rewrite firstn_skipn in E. rewrite E, (head_of _ _ _ U) in H. discriminate.
      * apply IH. cbn [List.length] in L. rewrite skipn_length. lia.
Qed.

Lemma sanitise_valid s : is_utf8 s -> sanitise_utf8 more s = s.
Proof. intros H. apply is_utf8_decode in H as (u & E). unfold sanitise_utf8. rewrite E. reflexivity. Qed.

Lemma sanitise_repaired s : ~ is_utf8 s -> repaired s (sanitise_utf8 more s).
Proof.
  intros H. unfold sanitise_utf8. destruct (utf8_decode s) as [u|] eqn:E; [|apply replace_repaired; lia].
  exfalso. apply H, is_utf8_decode. eauto.
Qed.

Lemma utf8_dec s : is_utf8 s \/ ~ is_utf8 s.
Proof.
  destruct (utf8_decode s) as [u|] eqn:E; [left|right]; rewrite is_utf8_decode; [eauto|]. intros (u & E'). congruence.
Qed.

Lemma sanitise_utf8_proof s : is_utf8 (sanitise_utf8 more s).
Proof.
  destruct (utf8_dec s) as [H|H]; [rewrite sanitise_valid; exact H|]. eapply repaired_utf8, sanitise_repaired, H.
Qed.

Lemma sanitise_nonempty s : s <> [] -> sanitise_utf8 more s <> [].
Proof.
  intros N. destruct (utf8_dec s) as [H|H]; [rewrite sanitise_valid; assumption|].
  eapply repaired_nonempty; [apply sanitise_repaired, H|exact N].
Qed.

Lemma sanitise_idempotent s : sanitise_utf8 more (sanitise_utf8 more s) = sanitise_utf8 more s.
Proof. apply sanitise_valid, sanitise_utf8_proof. Qed.
End Sanitise.

(** ** Versions *)

Lemma starts_with_spec p s : starts_with p s = true <-> exists r, s = p ++ r.
Proof.
  unfold starts_with. destruct (bytes_eqb_spec (firstn (List.length p) s) p) as [E|E].
  - split; [|reflexivity]. intros _. exists (skipn (List.length p) s). rewrite <- E at 1. symmetry. apply firstn_skipn.
  - split; [discriminate|]. intros (r & ->). elim E. rewrite firstn_app, Nat.sub_diag, firstn_all. cbn. apply app_nil_r.
Qed.

Lemma before_some sep s : forall a, before_first sep s = Some a -> upto sep s a.
Proof.
  induction s as [|c s IH]; intros a H; cbn [before_first] in H; destruct (starts_with sep _) eqn:S.
  - injection H as <-. apply starts_with_spec in S as (r & E). split; [exists r; exact E|]. intros. cbn. lia.
  - discriminate.
  - injection H as <-. apply starts_with_spec in S as (r & E). split; [exists r; exact E|]. intros. cbn. lia.
  - destruct (before_first sep s) as [a0|] eqn:B; [|discriminate]. injection H as <-. destruct (IH a0 eq_refl) as ((r & E) & M).
    split; [exists r; cbn; congruence|]. intros [|x a'] r' E'.
    + exfalso. assert (starts_with sep (c :: s) = true) by (apply starts_with_spec; exists r'; exact E'). congruence.
    + cbn in E'. injection E' as _ E'. specialize (M a' r' E'). cbn. lia.
Qed.

Lemma before_none sep s : before_first sep s = None -> absent sep s.
Proof.
  induction s as [|c s IH]; intros H a r E; cbn [before_first] in H; destruct (starts_with sep _) eqn:S; try discriminate.
  - destruct a; [|discriminate]. cbn in E. assert (starts_with sep [] = true) by (apply starts_with_spec; exists r; exact E). congruence.
  - destruct (before_first sep s) as [a0|]; [discriminate|]. destruct a as [|x a].
    + assert (starts_with sep (c :: s) = true) by (apply starts_with_spec; exists r; exact E). congruence.
    + cbn in E. injection E as _ E. exact (IH eq_refl a r E).
Qed.

Lemma upto_fun m v a a' : upto m v a -> upto m v a' -> a = a'.
Proof.
  intros ((r & E) & M) ((r' & E') & M'). assert (List.length a = List.length a').
  { apply Nat.le_antisymm; eauto. }
  rewrite E' in E. apply (f_equal (firstn (List.length a))) in E. rewrite !firstn_app, Nat.sub_diag, firstn_all in E.
  rewrite H, firstn_all, Nat.sub_diag in E. cbn in E. rewrite !app_nil_r in E. symmetry. exact E.
Qed.

Lemma without_name_spec name v : nameless name v (without_name name v).
Proof.
  unfold without_name. destruct name as [n|]; [|apply nl_other; intros; discriminate].
  destruct (starts_with (map lower_char n) (map lower_char v)) eqn:S.
  - apply starts_with_spec in S as (r & E).
    assert (v = firstn (List.length n) v ++ skipn (List.length n) v) as Ev by (symmetry; apply firstn_skipn).
    assert (same_letters (firstn (List.length n) v) n) as SL.
    { unfold same_letters. rewrite <- firstn_map, E, <- (map_length lower_char n), firstn_app, Nat.sub_diag, firstn_all. apply app_nil_r. }
    destruct (lstrip_suffix (skipn (List.length n) v)) as (w & Ew & Sw).
    apply (nl_name (Some n) v n (firstn (List.length n) v) w).
    + reflexivity.
    + rewrite <- Ew. exact Ev.
    + exact SL.
    + apply Forall_forall. rewrite forallb_forall in Sw. exact Sw.
    + intros c r' E'. eapply lstrip_head. exact E'.
  - apply nl_other. intros n' p r E SL Ev. injection E as <-.
    assert (starts_with (map lower_char n) (map lower_char v) = true); [|congruence].
    apply starts_with_spec. exists (map lower_char r). rewrite Ev, map_app. f_equal. exact SL.
Qed.

Lemma blanks_app_fun w v w' v' : blanks w -> no_blank_first v -> blanks w' -> no_blank_first v' -> w ++ v = w' ++ v' -> v = v'.
Proof.
  intros B N. revert w'. induction w as [|c w IH]; intros [|c' w'] B' N' E; cbn in E.
  - exact E.
  - inversion B' as [|? ? Bc _]; subst. specialize (N c' (w' ++ v') eq_refl). congruence.
  - inversion B as [|? ? Bc _]; subst. specialize (N' c (w ++ v) eq_refl). congruence.
  - injection E as _ E. inversion B; inversion B'; subst. eauto.
Qed.

Lemma nameless_fun name v a b : nameless name v a -> nameless name v b -> a = b.
Proof.
  intros [n p w a' En Ev SL B N|O] [n' p' w' b' En' Ev' SL' B' N'|O'].
  - assert (n' = n) by congruence. subst n'. assert (List.length p = List.length p') as L.
    { apply (f_equal (@List.length ascii)) in SL, SL'. rewrite !map_length in SL, SL'. congruence. }
    assert (w ++ a' = w' ++ b') as E.
    { rewrite Ev' in Ev. apply (f_equal (skipn (List.length p))) in Ev. rewrite L in Ev at 1. rewrite !skipn_app, !skipn_all, !Nat.sub_diag in Ev.
      cbn in Ev. congruence. }
    exact (blanks_app_fun w a' w' b' B N B' N' E).
  - elim (O' n p (w ++ a') En SL Ev).
  - elim (O n' p' (w' ++ b') En' SL' Ev').
  - reflexivity.
Qed.

Lemma split_ws_blanks w t : blanks w -> split_ws (w ++ t) = split_ws t.
Proof. induction 1 as [|c w B F IH]; cbn [app split_ws]; [reflexivity|]. rewrite B. exact IH. Qed.

Lemma first_word s : blanks s \/ exists w a r, s = w ++ a ++ r /\ blanks w /\ a <> [] /\ Forall (fun c => is_space c = false) a /\
  (forall c r', r = c :: r' -> is_space c = true).
Proof.
  induction s as [|c s IH]; [left; constructor|]. destruct (is_space c) eqn:C.
  - destruct IH as [B|(w & a & r & E & B & N & F & R)]; [left; constructor; assumption|].
    right. exists (c :: w), a, r. split; [cbn; congruence|]. split; [constructor; assumption|]. auto.
  - right. exists [].
    assert (exists a r, s = a ++ r /\ Forall (fun c => is_space c = false) a /\ forall c r', r = c :: r' -> is_space c = true) as (a & r & E & F & R).
    { clear. induction s as [|c s IH]; [exists [], []; repeat split; [constructor|discriminate]|]. destruct (is_space c) eqn:C.
      - exists [], (c :: s). split; [reflexivity|]. split; [constructor|]. intros c' r' E. congruence.
      - destruct IH as (a & r & E & F & R). exists (c :: a), r. split; [cbn; congruence|]. split; [constructor; assumption|exact R]. }
    exists (c :: a), r. split; [cbn; congruence|]. split; [constructor|]. split; [discriminate|]. split; [constructor; assumption|exact R].
Qed.

Lemma word_split s w a r : s = w ++ a ++ r -> blanks w -> a <> [] -> Forall (fun c => is_space c = false) a ->
  (forall c r', r = c :: r' -> is_space c = true) -> split_ws s = a :: split_ws r.
Proof. intros -> B N F R. rewrite split_ws_blanks by exact B. apply split_ws_word; assumption. Qed.

Lemma absent_not_upto m v a : absent m v -> ~ upto m v a.
Proof. intros A ((r & E) & _). exact (A a r E). Qed.

Lemma blanks_absent m v : (exists c r, m = c :: r /\ is_space c = false) -> blanks v -> absent m v.
Proof.
  intros (c & r & -> & C) B a r' ->. unfold blanks in B. rewrite !Forall_app in B. destruct B as (_ & B & _).
  inversion B. congruence.
Qed.

Lemma fix_version_spec name v :
  (forall c, fix_version name v = Ok c <-> clean_version name v c) /\
  (forall e, fix_version name v = Err e <-> e = IndexError /\ unreadable name v).
Proof.
  pose proof (without_name_spec name v) as NL. unfold fix_version. set (u := without_name name v) in *.
  assert (forall c, clean_version name v c <-> cut u c) as CV.
  { intros c. split; [|intros H; exists u; auto]. intros (u' & NL' & C). rewrite (nameless_fun _ _ _ _ NL NL'). exact C. }
  assert (unreadable name v <-> (64 < List.length u)%nat /\ blanks u) as UR.
  { split.
    - intros (L & B & N). rewrite (nameless_fun _ _ _ _ NL N). auto.
    - intros (L & B). assert (u = v) as E.
      { destruct NL as [n p w u' En Ev SL Bw Nb|O]; [|reflexivity]. exfalso.
        destruct u' as [|c u']; [cbn in L; lia|]. inversion B. specialize (Nb c u' eq_refl). congruence. }
      rewrite E in *. split; [exact L|]. split; [exact B|exact NL]. }
  assert (mogo = str ". Please read http:") as Em by reflexivity. assert (pachi = str ": I'm playing") as Ep by reflexivity.
  rewrite <- Em, <- Ep.
  destruct (Z.ltb_spec 64 (Z.of_nat (List.length u))) as [L|L].
  - destruct (before_first mogo u) as [a|] eqn:B1.
    { apply before_some in B1. split.
      - intros c. rewrite CV. split; [intros E; injection E as <-; apply cut_mogo; [lia|exact B1]|].
        intros C. f_equal. destruct C as [u' L'|u' c L' U|u' c L' A U|u' w c r L' A1 A2 E B N F R]; [lia| | |].
        + eapply upto_fun; eassumption.
        + elim (absent_not_upto _ _ _ A B1).
        + elim (absent_not_upto _ _ _ A1 B1).
      - intros e. split; [discriminate|]. intros (_ & U). apply UR in U as (_ & B). elim (absent_not_upto mogo u a); [|exact B1].
        apply blanks_absent; [|exact B]. eexists _, _. split; [vm_compute; reflexivity|reflexivity]. }
    apply before_none in B1. destruct (before_first pachi u) as [a|] eqn:B2.
    { apply before_some in B2. split.
      - intros c. rewrite CV. split; [intros E; injection E as <-; apply cut_pachi; [lia|exact B1|exact B2]|].
        intros C. f_equal. destruct C as [u' L'|u' c L' U|u' c L' A U|u' w c r L' A1 A2 E B N F R]; [lia| | |].
        + elim (absent_not_upto _ _ _ B1 U).
        + eapply upto_fun; eassumption.
        + elim (absent_not_upto _ _ _ A2 B2).
      - intros e. split; [discriminate|]. intros (_ & U). apply UR in U as (_ & B). elim (absent_not_upto pachi u a); [|exact B2].
        apply blanks_absent; [|exact B]. eexists _, _. split; [vm_compute; reflexivity|reflexivity]. }
    apply before_none in B2. destruct (first_word u) as [B|(w & a & r & E & B & N & F & R)].
    + assert (split_ws u = []) as ->. { rewrite <- (app_nil_r u). rewrite split_ws_blanks by exact B. reflexivity. }
      split.
      * intros c. rewrite CV. split; [discriminate|]. intros C. exfalso. destruct C as [u' L'|u' c L' U|u' c L' A U|u' w c r L' A1 A2 E B' N F R]; [lia| | |].
        -- exact (absent_not_upto _ _ _ B1 U).
        -- exact (absent_not_upto _ _ _ B2 U).
        -- unfold blanks in B. rewrite E, !Forall_app in B. destruct B as (_ & B & _). destruct c as [|x c]; [congruence|]. inversion B; inversion F; congruence.
      * intros e. rewrite UR. split; [|intros (-> & _); reflexivity]. intros H. injection H as <-. split; [reflexivity|]. split; [lia|exact B].
    + rewrite (word_split u w a r E B N F R). split.
      * intros c. rewrite CV. split; [intros H; injection H as <-; eapply cut_word; eauto; lia|]. intros C. f_equal.
        destruct C as [u' L'|u' c L' U|u' c L' A U|u' w' c r' L' A1 A2 E' B' N' F' R']; [lia| | |].
        -- elim (absent_not_upto _ _ _ B1 U).
        -- elim (absent_not_upto _ _ _ B2 U).
        -- pose proof (word_split u' w a r E B N F R) as S1. pose proof (word_split u' w' c r' E' B' N' F' R') as S2. congruence.
      * intros e. rewrite UR. split; [discriminate|]. intros (_ & _ & B'). exfalso.
        unfold blanks in B'. rewrite E, !Forall_app in B'. destruct B' as (_ & B' & _). destruct a as [|x a]; [congruence|]. inversion B'; inversion F; congruence.
  - split.
    + intros c. rewrite CV. split; [intros H; injection H as <-; apply cut_short; lia|]. intros C. f_equal.
      destruct C as [u' L'|u' c L' U|u' c L' A U|u' w c r L' A1 A2 E B N F R]; [reflexivity| | |]; lia.
    + intros e. rewrite UR. split; [discriminate|]. intros (_ & L' & _). lia.
Qed.

(** A clean version is part of the version, and it is UTF-8 if the version is. *)
Lemma utf8_suffix p : forall u r, is_utf8 p -> utf8 u (p ++ r) -> is_utf8 r.
Proof.
  intros u r (up & U & _). revert u. induction U as [|z c up p H U IH]; intros u V; [eapply utf8_is; exact V|].
  rewrite <- app_assoc in V. apply utf8_decode_of in V. rewrite (utf8_of_decode _ _ _ H) in V.
  destruct (utf8_decode (p ++ r)) as [u'|] eqn:D; [|discriminate]. apply (IH u'). eapply (utf8_decode_sound (List.length (p ++ r))); [lia|exact D].
Qed.

Lemma lower_low c : ord (lower_char c) < 128 <-> ord c < 128.
Proof.
  unfold lower_char. destruct (is_upper c) eqn:U; [|reflexivity]. unfold is_upper in U. rewrite ord_chr; lia.
Qed.
Lemma lower_high c : 128 <= ord c -> lower_char c = c.
Proof. intros H. unfold lower_char, is_upper. destruct ((65 <=? ord c) && (ord c <=? 90)) eqn:U; [lia|reflexivity]. Qed.
Lemma lower_same_high a b : lower_char a = lower_char b -> 128 <= ord b -> a = b.
Proof.
  intros E H. assert (128 <= ord a). { destruct (Z.lt_ge_cases (ord a) 128) as [L|L]; [|exact L]. apply (proj2 (lower_low a)) in L. rewrite E in L. apply (proj1 (lower_low b)) in L. lia. }
  rewrite (lower_high a), (lower_high b) in E; auto.
Qed.

Lemma utf8_of_high z c : utf8_of z c -> (exists a, c = [a] /\ ord a < 128) \/ Forall (fun b => 128 <= ord b) c.
Proof.
  destruct 1; [left; eexists; split; [reflexivity|lia]|right|right|right]; repeat (apply Forall_cons; [lia|]); constructor.
Qed.

Lemma letters_utf8 n : is_utf8 n -> forall p, same_letters p n -> is_utf8 p.
Proof.
  intros (u & U & _). induction U as [|z c u n H U IH]; intros p SL; unfold same_letters in *.
  - destruct p; [apply ascii_utf8; reflexivity|discriminate].
  - rewrite map_app in SL. apply map_eq_app in SL as (c' & p' & -> & Ec & Ep). apply is_utf8_app; [|apply IH; exact Ep].
    destruct (utf8_of_high _ _ H) as [(a & -> & A)|F].
    + destruct c' as [|b [|]]; try discriminate. cbn in Ec. injection Ec as Ec. apply ascii_utf8. cbn. apply (proj2 (lower_low a)) in A. rewrite <- Ec in A.
      apply (proj1 (lower_low b)) in A. lia.
    + assert (c' = c) as ->; [|eapply char_utf8; exact H]. clear -F Ec. revert c' Ec. induction F as [|b c B F IH]; intros [|x c'] E; try discriminate; [reflexivity|].
      cbn in E. injection E as E1 E2. rewrite (IH _ E2), (lower_same_high x b E1 B). reflexivity.
Qed.

Lemma utf8_prefix a b : is_utf8 (a ++ b) -> (forall c t, b = c :: t -> ord c < 128) -> is_utf8 a.
Proof. intros (u & U & _) H. destruct (utf8_app_inv u a b U H) as (ua & ub & A & _). eapply utf8_is; exact A. Qed.

Lemma blank_low c : is_space c = true -> ord c < 128.
Proof. unfold is_space. lia. Qed.

Lemma blanks_utf8 w : blanks w -> is_utf8 w.
Proof. intros B. apply ascii_utf8, forallb_forall. intros c I. unfold blanks in B. rewrite Forall_forall in B. pose proof (blank_low _ (B c I)). lia. Qed.

Lemma clean_utf8 name v c : clean_version name v c -> (forall n, name = Some n -> is_utf8 n) -> is_utf8 v -> is_utf8 c.
Proof.
  intros (u & NL & C) UN UV.
  assert (is_utf8 u) as UU.
  { destruct NL as [n p w u En Ev SL B N|O]; [|exact UV]. rewrite Ev in UV. destruct UV as (x & X & _).
    pose proof (utf8_suffix p _ _ (letters_utf8 n (UN n En) p SL) X) as (y & Y & _). exact (utf8_suffix w _ _ (blanks_utf8 w B) Y). }
  destruct C as [u' L'|u' c L' ((r & ->) & _)|u' c L' A ((r & ->) & _)|u' w c r L' A1 A2 -> B N F R].
  - exact UU.
  - eapply utf8_prefix; [exact UU|]. intros x t E. cbn in E. injection E as <- _. cbn. lia.
  - eapply utf8_prefix; [exact UU|]. intros x t E. cbn in E. injection E as <- _. cbn. lia.
  - destruct UU as (x & X & _). pose proof (utf8_suffix w _ _ (blanks_utf8 w B) X) as Y. eapply utf8_prefix; [exact Y|].
    intros y t E. apply blank_low. eapply R. exact E.
Qed.

Lemma clean_part name v c : clean_version name v c -> exists a b, v = a ++ c ++ b.
Proof.
  intros (u & NL & C). assert (exists a, v = a ++ u) as (a & Ea).
  { destruct NL as [n p w u En Ev SL B N|O]; [exists (p ++ w); rewrite <- app_assoc; exact Ev|exists []; reflexivity]. }
  assert (exists x y, u = x ++ c ++ y) as (x & y & E).
  { destruct C as [u' L'|u' c L' ((r & ->) & _)|u' c L' A ((r & ->) & _)|u' w c r L' A1 A2 -> B N F R].
    - exists [], []. rewrite app_nil_r. reflexivity.
    - exists [], (mogo ++ r). reflexivity.
    - exists [], (pachi ++ r). reflexivity.
    - exists w, r. reflexivity. }
  exists (a ++ x), y. rewrite Ea, E, <- app_assoc. reflexivity.
Qed.
