(** Proofs for C76. *)
From Verif Require Import Base Bytes PyStr Dict CommonModel SgfGrammarModel SgfGrammarSpec SgfTreeConvModel SgfPropsModel SgfPropsSpec SgfValueSpec SgfValueProofs
  SgfGrammarProofs SgfParserProofs SgfErrorProofs SgfTextProofs SgfTreeConvProofs SgfTypeErrorProofs
  SgfTreeModel SgfTreeSpec SgfNodeProofs SgfTreeProofs SgfNavProofs SgfGameProofs SgfSaveProofs SgfCharsetModel SgfCharsetSpec SgfCharsetProofs SgfCharsetTreeProofs SgfCharsetMainProofs
  RingFilesModel RingFilesSpec RingFilesProofs SplitSgfModel SplitSgfSpec.

(** ** Encodings *)
Lemma transcode_reads e s t : transcode s e = Ok t <-> recoded e UTF_8 s t.
Proof.
  unfold transcode. destruct (py_decode e s) as [u|ex] eqn:D; cbn [bind].
  - apply decode_spells in D. pose proof (spells_valid _ _ _ D) as V. split.
    + intros H. exists u. split; [exact D|]. destruct e; try (apply encode_spells; assumption). injection H as <-. exact D.
    + intros (u' & S1 & S2). apply decode_spells in S1. apply decode_spells in D. assert (u' = u) as -> by congruence.
      destruct e; try (apply encode_spells; assumption). f_equal. apply decode_spells in D. cbn [spells] in *.
      pose proof (proj1 (utf8_fun _ _ S2)). pose proof (proj1 (utf8_fun _ _ D)). congruence.
  - split; [discriminate|]. intros (u & S & _). apply decode_spells in S. congruence.
Qed.

Lemma serialise_holds n e s : note_ok e s -> exists raw, serialise_text s (mkCtx n e) = Ok raw /\ holds_text e raw s.
Proof.
  intros N.
  assert (e = UTF_8 \/ e <> UTF_8) as [->|NE] by (destruct e; [left; reflexivity|right; discriminate|right; discriminate]).
  - exists (escape_text s). split; [reflexivity|]. exists (text_value (escape_text s)). split; [apply C13_text_proof|reflexivity].
  - destruct N as [E|(s1 & u & S1 & S2)]; [congruence|]. destruct (text_round (mkCtx n e) s) as (raw & E1 & (s' & E2 & N) & _).
    { exists u. split; [exact S1|]. apply spells_enc in S2. destruct S2 as [[V B] _]. cbn [c_encoding]. exact B. }
    exists (escape_text raw). split; [exact E1|]. exists s'. split; [exact N|].
    unfold interpret_text in E2. cbn [c_encoding] in E2. apply transcode_reads, recoded_sym in E2. destruct e; [congruence|exact E2|exact E2].
Qed.
Lemma serialise_not n e s ex : serialise_text s (mkCtx n e) = Err ex -> ex = ValueError /\ ~ note_ok e s.
Proof.
  intros E. split.
  - unfold serialise_text in E. cbn [c_encoding] in E. destruct e; cbn [bind] in E; [discriminate| |].
    + destruct (py_decode UTF_8 s) as [u|x] eqn:D; cbn [bind] in E; [|unfold py_decode in D; destruct (utf8_decode s); congruence].
      destruct (py_encode _ u) as [u'|x] eqn:PE; cbn [bind] in E; [discriminate|]. unfold py_encode in PE. destruct (forallb _ _); congruence.
    + destruct (py_decode UTF_8 s) as [u|x] eqn:D; cbn [bind] in E; [|unfold py_decode in D; destruct (utf8_decode s); congruence].
      destruct (py_encode _ u) as [u'|x] eqn:PE; cbn [bind] in E; [discriminate|]. unfold py_encode in PE. destruct (forallb _ _); congruence.
  - intros N. destruct (serialise_holds n e s N) as (raw & E' & _). congruence.
Qed.

Lemma serialise_fits n e s raw : serialise_text s (mkCtx n e) = Ok raw -> note_ok e s.
Proof.
  assert (e = UTF_8 \/ e <> UTF_8) as [->|NE] by (destruct e; [left; reflexivity|right; discriminate|right; discriminate]); [left; reflexivity|].
  intros E. right. unfold serialise_text in E. cbn [c_encoding] in E.
  assert (exists s', (do u <- py_decode UTF_8 s; py_encode e u) = Ok s') as (s' & E').
  { destruct e; [congruence| |].
    - destruct (do u <- py_decode UTF_8 s; py_encode ISO_8859_1 u) as [s'|]; [eauto|discriminate].
    - destruct (do u <- py_decode UTF_8 s; py_encode ASCII u) as [s'|]; [eauto|discriminate]. }
  destruct (py_decode UTF_8 s) as [u|] eqn:D; cbn [bind] in E'; [|discriminate]. exists s', u. apply decode_spells in D. split; [exact D|].
  apply encode_spells; [|exact E']. eapply spells_valid. exact D.
Qed.
Lemma note_ok_app e v old note : reads e v old -> note_ok e note -> note_ok e (old ++ [char_lf; char_lf] ++ note).
Proof.
  intros R [N|(s & N)]; [left; exact N|]. right. exists (text_value v ++ [char_lf; char_lf] ++ s).
  apply recoded_cat_ascii; [apply recoded_sym; exact R|]. apply recoded_cat_ascii; [|exact N].
  apply recoded_ascii; [|reflexivity]. repeat constructor; cbv; reflexivity.
Qed.

(** ** Nodes *)
Lemma data_elsewhere w r x m' : node_at w r = Some x ->
  forall t n d, tree_of w n t -> data_of w n d -> ~ In r (labels t) -> data_of (put_props w r x m') n d.
Proof.
  intros E t n d T. revert d. pattern n, t. revert n t T.
  apply tree_of_ind2.
  intros n y ts Ey F IH d D N. destruct D as [n y' ds Ey' FD]. assert (y' = y) as -> by congruence.
  cbn [labels] in N. econstructor.
  - rewrite (put_props_at _ _ _ _ _ E). destruct (Nat.eqb_spec r n) as [->|]; [exfalso; apply N; left; reflexivity|exact Ey].
  - assert (NK : ~ In r (flat_map labels ts)) by (intros X; apply N; right; exact X). clear N E Ey Ey' F.
    revert ds FD. induction IH as [|a b l l' Hab IHF IHF']; intros ds FD; [inversion FD; constructor|].
    inversion FD as [|? ? ? ? H1 H2]; subst. constructor.
    + apply Hab; [exact H1|]. intros X. apply NK. cbn [flat_map]. apply in_or_app. left. exact X.
    + apply IHF'; [|exact H2]. intros X. apply NK. cbn [flat_map]. apply in_or_app. right. exact X.
Qed.

Lemma data_put w r x m' ks : inv w -> node_at w r = Some x -> data_of w r (NT (t_props x) ks) -> data_of (put_props w r x m') r (NT m' ks).
Proof.
  intros I E D. pose proof (inv_wf _ I) as W. destruct (tree_exists _ _ _ W E) as (t & T). pose proof (labels_nodup _ _ _ W T) as ND.
  inversion D as [n y ds Ey FD]; subst. assert (y = x) by congruence. subst y. inversion T as [n y ts Ey2 FT]; subst. assert (y = x) by congruence. subst y.
  cbn [labels] in ND. inversion ND as [|? ? NI _]; subst.
  change m' with (t_props (with_props m' x)). econstructor; [rewrite (put_props_at _ _ _ _ _ E), Nat.eqb_refl; reflexivity|].
  change (t_kids (with_props m' x)) with (t_kids x). clear D T ND Ey Ey2. revert ts FT NI. induction FD as [|a b l l' H F IH]; intros ts FT NI; [constructor|].
  inversion FT as [|? ? ? ? T1 T2]; subst. constructor.
  - eapply data_elsewhere; eauto. intros X. apply NI. cbn [flat_map]. apply in_or_app. left. exact X.
  - eapply IH; [exact T2|]. intros X. apply NI. cbn [flat_map]. apply in_or_app. right. exact X.
Qed.

Lemma serialise_inv w i g d wrap : inv w -> game_at w i = Some g -> data_of w (g_root g) d -> all_named d ->
  exists out t' d', serialise_game w g wrap = Ok out /\ parse_sgf_game out = Ok t' /\ denotes t' d' /\ same_data_tree d d'.
Proof.
  intros IV G D N. pose proof (inv_wf _ IV) as W.
  destruct (inv_size _ IV _ _ G) as (B & x & Ex & SZ).
  destruct (tree_exists _ _ _ W Ex) as (t & T).
  destruct (tree_data_ok _ _ _ T (List.length (w_nodes w)) (labels_length _ _ _ W T)) as (d0 & TD & D0).
  pose proof (data_of_fun _ _ _ D _ D0) as <-.
  destruct (make_coarse_ok d) as (h & ct & MC & DC & CC & RC).
  assert (good_tree ct) as GT.
  { eapply denotes_good; eauto. apply SgfSaveProofs.named_good; auto. eapply data_of_all; [|exact D]. apply (inv_props _ IV). }
  destruct (C10_game_proof ct wrap GT) as (out & t' & SE & PE & ST).
  destruct (C11_game_proof out) as [(t2 & E2 & PT)|E2]; [|congruence]. rewrite PE in E2. injection E2 as <-.
  exists out, t', (ntree_of t'). pose proof (ntree_of_denotes _ (parsed_seqs_ok _ PT)) as DN.
  split; [|split; [exact PE|split; [exact DN|eapply denotes_same; eauto]]].
  unfold serialise_game. rewrite TD. cbn [bind]. rewrite MC. cbn [bind].
  rewrite (read_coarse_ok h ct O (ntree_size d) RC (denotes_size _ _ DC)). cbn [bind]. exact SE.
Qed.

(** ** One game *)
Lemma denotes_fun t : forall d d', denotes t d -> denotes t d' -> d = d'.
Proof.
  induction t as [sq ch IH] using ctree_ind'. intros d d' D D'. revert d d' D D'. induction sq as [|m sq IHs]; intros d d' D D'; [inversion D|].
  inversion D as [? ? ts F|? m1 sq1 ? t1 D1]; subst.
  - inversion D' as [? ? ts' F'|]; subst. f_equal. clear - IH F F'. revert ts ts' F F'. induction IH as [|c ch Hc _ IHc]; intros ts ts' F F'; inversion F; inversion F'; subst; [reflexivity|]. f_equal; eauto.
  - inversion D' as [|? ? ? ? t2 D2]; subst. f_equal. f_equal. eapply IHs; eauto.
Qed.

Lemma split_game_proof reg note t e m ks : knows_names reg -> parsed_tree t -> proper_game reg t e m ks ->
  match split_game reg note t with
  | File text => is_copy e m ks note text
  | NoFile ex => ex = ValueError /\ ~ (size_ok m /\ comment_ok e m /\ note_ok e note)
  | EmptyFile => False
  end.
Proof.
  intros KN PT (D & AN & NC).
  assert (exists sq ch, t = CT (m :: sq) ch) as (sq & ch & ->) by (inversion D; subst; eauto).
  assert (parsed_node m) as PM by (inversion PT as [? ? ? F _]; inversion F; assumption).
  assert (VNE : forall k vs, lookup k m = Some vs -> vs <> []).
  { intros k vs L. apply lookup_in in L. destruct PM as [_ PM]. rewrite Forall_forall in PM. destruct (PM _ L) as (_ & X & _). exact X. }
  unfold split_game, from_coarse. cbn [c_sequence].
  assert ((do name <- declared_charset m None; presenter_encoding reg name) = Ok e) as ->.
  { unfold names_charset in NC. unfold declared_charset. rewrite lookup_dget in NC. destruct (dget (str "CA") m) as [vs|].
    - destruct NC as (n & -> & P & RN). cbn [bind]. unfold presenter_encoding. rewrite plain_no_nul, RN by exact P. reflexivity.
    - subst e. cbn [bind]. unfold presenter_encoding. change (existsb (fun c => ord c =? 0) (str "ISO-8859-1")) with false. cbv iota.
      change (str "ISO-8859-1") with (encoding_name ISO_8859_1). rewrite KN. reflexivity. }
  destruct (match dget (str "SZ") m with None => Ok 19 | Some [] => Err IndexError | Some (s :: _) => py_int s end) as [size|ex] eqn:ES.
  2:{ unfold load_game. cbn [c_sequence]. rewrite ES. cbn [raise]. rewrite <- lookup_dget in ES. destruct (lookup (str "SZ") m) as [[|v r]|] eqn:L; [destruct (VNE _ _ L eq_refl)| |discriminate].
      split. - unfold py_int in ES. revert ES. clear. repeat match goal with |- context[match ?x with _ => _ end] => destruct x end; congruence.
      - intros (S & _). unfold size_ok in S. rewrite L in S. destruct S as (v' & r' & n & Ev & Ei & _). injection Ev as -> ->. congruence. }
  destruct ((1 <=? size) && (size <=? 26)) eqn:B.
  2:{ unfold load_game. cbn [c_sequence]. rewrite ES, B. cbn [negb raise]. split; [reflexivity|]. intros (S & _). unfold size_ok in S. rewrite <- lookup_dget in ES.
      destruct (lookup (str "SZ") m) as [[|v r]|] eqn:L; [destruct (VNE _ _ L eq_refl)| |injection ES as <-; discriminate].
      destruct S as (v' & r' & n & Ev & Ei & R). injection Ev as -> ->. assert (n = size) by congruence. subst n. lia. }
  destruct (load_game_ok empty_world (CT (m :: sq) ch) e size m sq inv_empty PT eq_refl ES ltac:(lia)) as (w & nt & LE & DN & G1 & D1 & _).
  pose proof (load_game_inv empty_world (CT (m :: sq) ch) e false inv_empty PT) as IW. rewrite LE in *. cbn [fst] in IW.
  pose proof (denotes_fun _ _ _ D DN) as <-. cbn [w_games w_nodes empty_world List.length] in G1, D1. rewrite G1. cbn [g_root].
  set (g := mkGame 0 (new_presenter size e)) in *.
  inversion D1 as [n0 x ts Ex FD EQn EQm]. subst n0 ts.
  assert (pres_of w x = Some (new_presenter size e)) as EP.
  { destruct (wf_game _ (inv_wf _ IW) _ _ G1) as (y & Ey & _ & Oy). cbn [g_root g] in Ey. assert (y = x) by congruence. subst y. unfold pres_of. rewrite Oy, G1. reflexivity. }
  assert (EFT : effective_type (new_presenter size e) (str "C") = Ok PT_text) by reflexivity.
  assert (ECA : effective_type (new_presenter size e) (str "CA") = Ok PT_simpletext) by reflexivity.
  (* setting the comment, and writing *)
  assert (SETP : forall full, full_comment e m note full ->
    match set_prop w 0 (str "C") (VText full) with
    | (_, Err ex) => ex = ValueError /\ ~ note_ok e full
    | (w2, Ok _) => match save_game reg w2 g (Some 79) with Saved text => is_copy e m ks note text | _ => False end
    end).
  { intros full FC. unfold set_prop, on_node. rewrite Ex, EP. change (negb (is_valid_property_identifier (str "C"))) with false. cbv iota.
    unfold serialise. rewrite EFT. cbn [bind serialise_as_type uses_list serialise_single].
    change (pr_context (new_presenter size e)) with (mkCtx size e).
    destruct (serialise_text full (mkCtx size e)) as [raw|ex] eqn:SE; cbn [bind].
    2:{ exact (serialise_not _ _ _ _ SE). }
    unfold set_raw_list_core. change (bytes_eqb (str "C") (str "SZ")) with false. cbn [andb]. unfold done.
    set (w2 := put_props w 0 x (dset (str "C") [raw] (t_props x))).
    assert (GW : game_at w2 0 = Some g) by exact G1.
    assert (DW : data_of w2 0 (NT (dset (str "C") [raw] m) ks)).
    { unfold w2. rewrite EQm. apply data_put; [exact IW|exact Ex|rewrite EQm; exact D1]. }
    assert (IW2 : inv w2).
    { pose proof (set_prop_edits w 0 (str "C") (VText full) (node_at_lt _ _ _ Ex) (inv_wf _ IW)) as ED. unfold edits, set_prop, on_node in ED. rewrite Ex, EP in ED.
      change (negb (is_valid_property_identifier (str "C"))) with false in ED. cbv iota in ED. unfold serialise in ED. rewrite EFT in ED. cbn [bind serialise_as_type uses_list serialise_single] in ED.
      change (pr_context (new_presenter size e)) with (mkCtx size e) in ED. rewrite SE in ED. cbn [bind] in ED. eapply edited_inv; [exact ED|exact IW]. }
    assert (AN2 : all_named (NT (dset (str "C") [raw] m) ks)).
    { inversion AN as [? ? A1 A2]; subst. constructor; [|exact A2]. intros I. apply A1. apply (proj1 (dset_keys _ _ _ _)) in I. destruct I as [I|I]; [discriminate|exact I]. }
    destruct (serialise_inv w2 0 g _ (Some 79) IW2 GW DW AN2) as (out & t' & d' & S1 & S2 & S3 & S4).
    assert (GC : get_charset reg w2 g = Ok (encoding_name e)).
    { eapply C67_charset_proof; [unfold w2; cbn [g_root g]; rewrite (put_props_at _ _ _ _ _ Ex), Nat.eqb_refl; reflexivity|exact EP|exact ECA|].
      cbn [with_props t_props]. unfold names_charset in *. rewrite lookup_dget, dget_dset_other by discriminate. rewrite EQm, <- lookup_dget. exact NC. }
    unfold save_game. rewrite GC, S1. cbv zeta. change (encoding_name (game_encoding g)) with (encoding_name e). rewrite bytes_eqb_refl.
    inversion S4 as [m1 m2 ks1 ks2 SN SK]; subst d'. exists t', m2, ks2, raw, full. split; [exact S2|]. split; [exact S3|]. split; [exact SK|]. split; [|split; [|split; [exact FC|]]].
    - intros k NK. rewrite <- SN, !lookup_dget. apply dget_dset_other. exact NK.
    - rewrite <- SN, lookup_dget. apply dget_dset_same.
    - destruct (serialise_holds size e full (serialise_fits _ _ _ _ SE)) as (raw' & E' & HT). assert (raw' = raw) by congruence. subst raw'. exact HT. }
  (* the comment that's there *)
  rewrite EQm in *. unfold add_comment_text. unfold has_property, dmem. rewrite Ex. cbn [t_props]. rewrite EQm, <- lookup_dget.
  destruct (lookup (str "C") m) as [[|v r]|] eqn:LC; [destruct (VNE _ _ LC eq_refl)| |].
  - unfold get_prop, get_raw_list. rewrite Ex, EQm, <- lookup_dget, LC. cbn [bind]. rewrite EP. unfold interpret. rewrite EFT. cbn [bind interpret_as_type uses_list interpret_single].
    change (pr_context (new_presenter size e)) with (mkCtx size e).
    destruct r as [|v2 r]; cbn [bind].
    2:{ unfold interpret_text; destruct (transcode (text_value v) (c_encoding (mkCtx size e))) as [old|ex] eqn:TR; cbn [bind raise].
        all: split; [try reflexivity; try (eapply transcode_err; eauto)|intros (_ & C & _); unfold comment_ok in C; rewrite LC in C; destruct C as (v0 & s0 & Ev & _); discriminate]. }
    unfold interpret_text. cbn [c_encoding]. destruct (transcode (text_value v) e) as [old|ex] eqn:TR; cbn [bind].
    + apply transcode_reads in TR. specialize (SETP _ (fc_more e m note v old LC TR)).
      destruct (set_prop w 0 (str "C") (VText (old ++ [char_lf; char_lf] ++ note))) as [w2 [u|ex]].
      * destruct (save_game reg w2 g (Some 79)); tauto.
      * destruct SETP as [-> N]. split; [reflexivity|]. intros (_ & _ & N2). apply N. eapply note_ok_app; eauto.
    + cbn [raise]. pose proof (transcode_err _ _ _ TR). subst ex. split; [reflexivity|]. intros (_ & C & _). unfold comment_ok in C. rewrite LC in C. destruct C as (v0 & s & Ev & Rs). injection Ev as <-. apply transcode_reads in Rs. congruence.
  - specialize (SETP _ (fc_none e m note LC)). destruct (set_prop w 0 (str "C") (VText note)) as [w2 [u|ex]].
    + destruct (save_game reg w2 g (Some 79)); tauto.
    + destruct SETP as [-> N]. split; [reflexivity|]. tauto.
Qed.

(** ** All games *)
Section Games.
Context (reg : registry) (opens : bytes -> bool) (d basename root ext : bytes).
Notation path i := (split_pathname d root ext i).
Notation note i := (split_note basename i).

(** What is known of the file for game number [n]. *)
Definition file_for (n : Z) (t : ctree) (f : bytes * bytes) : Prop :=
  fst f = path n /\ opens (fst f) = true /\
  (split_game reg (note n) t = File (snd f) \/ (split_game reg (note n) t = EmptyFile /\ snd f = [])).

Lemma split_games_proof : forall games n files e, split_games reg opens d basename root ext n games = (files, e) ->
  (forall i f, nth_error files i = Some f -> exists t, nth_error games i = Some t /\ file_for (n + Z.of_nat i) t f) /\
  match e with
  | Completed => List.length files = List.length games /\ forall i t, nth_error games i = Some t -> exists text, split_game reg (note (n + Z.of_nat i)) t = File text
  | BadCollection => False
  | Stopped => (exists t, nth_error games (List.length files) = Some t /\
                  (opens (path (n + Z.of_nat (List.length files))) = false \/ exists ex, split_game reg (note (n + Z.of_nat (List.length files))) t = NoFile ex)) \/
               (exists before t, List.length files = S before /\ nth_error games before = Some t /\ split_game reg (note (n + Z.of_nat before)) t = EmptyFile)
  end.
Proof.
  induction games as [|t games IH]; intros n files e E; cbn [split_games] in E.
  { injection E as <- <-. split; [intros [|i] f X; discriminate|]. split; [reflexivity|]. intros [|i] t X; discriminate. }
  assert (Z0 : n + Z.of_nat 0 = n) by lia. assert (ZS : forall i, n + Z.of_nat (S i) = n + 1 + Z.of_nat i) by (intros i; lia).
  destruct (split_game reg (note n) t) as [ex| |text] eqn:SG; cbv zeta in E.
  - injection E as <- <-. split; [intros [|i] f X; discriminate|]. left. exists t. cbn [List.length nth_error]. rewrite Z0. split; [reflexivity|]. right. eauto.
  - destruct (opens (path n)) eqn:OP; injection E as <- <-.
    + split. * intros [|[|i]] f X; cbn [nth_error] in X; try discriminate. injection X as <-. exists t. rewrite Z0. split; [reflexivity|]. split; [reflexivity|]. split; [exact OP|]. right. split; [exact SG|reflexivity].
      * right. exists 0%nat, t. cbn [List.length nth_error]. rewrite Z0. auto.
    + split; [intros [|i] f X; discriminate|]. left. exists t. cbn [List.length nth_error]. rewrite Z0. split; [reflexivity|]. left. exact OP.
  - destruct (opens (path n)) eqn:OP.
    2:{ injection E as <- <-. split; [intros [|i] f X; discriminate|]. left. exists t. cbn [List.length nth_error]. rewrite Z0. split; [reflexivity|]. left. exact OP. }
    destruct (split_games reg opens d basename root ext (n + 1) games) as [fs e'] eqn:R. injection E as <- <-.
    destruct (IH _ _ _ R) as (F & EN). split.
    + intros [|i] f X; cbn [nth_error] in X.
      * injection X as <-. exists t. rewrite Z0. split; [reflexivity|]. split; [reflexivity|]. split; [exact OP|]. left. exact SG.
      * destruct (F _ _ X) as (t' & N & FF). exists t'. rewrite ZS. auto.
    + destruct e'; cbn [List.length nth_error].
      * destruct EN as (L & A). split; [lia|]. intros [|i] t' X; cbn [nth_error] in X; [injection X as <-; rewrite Z0; eauto|]. rewrite ZS. eauto.
      * exact EN.
      * destruct EN as [(t' & N & H)|(b & t' & L & N & H)].
        -- left. exists t'. rewrite ZS. auto.
        -- right. exists (S b), t'. split; [rewrite L; reflexivity|]. cbn [nth_error]. rewrite ZS. auto.
Qed.
End Games.

Lemma part_plain f root ext n : plain f -> f = root ++ ext -> 0 <= n -> plain (part_name root ext n) /\ part_name root ext n <> [].
Proof.
  intros P E N. split.
  - unfold plain, part_name in *. subst f. intros I. rewrite !in_app_iff in I. rewrite in_app_iff in P. destruct I as [I|[I|[I|I]]]; [tauto| | |tauto].
    + destruct I as [I|[]]. discriminate.
    + destruct (str_int_nonneg n N) as (_ & DG & _). rewrite forallb_forall in DG. specialize (DG _ I). discriminate.
  - unfold part_name. destruct root; discriminate.
Qed.
Lemma part_inj root ext a b : part_name root ext a = part_name root ext b -> a = b.
Proof. unfold part_name. intros E. apply app_inv_head in E. apply app_inv_head in E. apply app_inv_tail in E. apply str_int_inj. exact E. Qed.
Lemma part_new root ext a : 0 <= a -> part_name root ext a <> root ++ ext.
Proof.
  intros N E. unfold part_name in E. apply app_inv_head in E. apply (f_equal (@List.length ascii)) in E. rewrite !app_length in E. cbn [str list_ascii_of_string List.length] in E.
  destruct (str_int_nonneg a N) as (_ & _ & NE). lia.
Qed.
