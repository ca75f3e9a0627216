From Verif Require Import Base Bytes PyStr Dict BoardSpec BoardModel SgfGrammarSpec SgfGrammarModel
  SgfGrammarProofs SgfParserProofs SgfTextProofs SgfTreeConvModel SgfTreeConvProofs SgfErrorProofs
  CommonModel CommonProofs DiagramProofs SgfPropsModel SgfPropsSpec
  SgfPropsProofs SgfValueSpec SgfValueProofs SgfTreeModel SgfTreeSpec SgfTreeProofs SgfNodeProofs SgfGameProofs SgfTreeMainProofs SgfNavProofs SgfSaveProofs SgfTypeErrorProofs
  SgfCharsetModel SgfCharsetSpec SgfCharsetProofs SgfCharsetReadProofs SgfCharsetTreeProofs.

Lemma denotes_ascii ct : forall nt, denotes ct nt -> all_nodes ascii_idents nt -> ascii_tree ct.
Proof.
  induction ct as [sq ch IH] using ctree_ind'. intros nt D.
  revert nt D. induction sq as [|m sq IHs]; intros nt D A; [inversion D|].
  inversion D as [? ? ts F|? ? ? ? t D']; subst; inversion A as [? ? Am Ak]; subst.
  - constructor; [constructor; [auto|constructor]|]. clear - IH F Ak. revert IH. induction F as [|c t ch ts D F IHF]; intros IH; constructor;
    inversion IH; inversion Ak; subst; eauto.
  - inversion Ak as [|? ? At _]; subst. specialize (IHs _ D' At). inversion IHs; subst. constructor; auto.
Qed.

(** What [serialise] writes before any transcoding. *)
Lemma serialise_shape_of w i g d wrap : reachable_world w -> game_at w i = Some g -> data_of w (g_root g) d ->
  exists ct out, serialise_game w g wrap = Ok out /\ layout (tree_pieces ct ++ [[char_lf]]) out /\
    denotes ct d /\ ascii_tree ct /\ (all_named d -> good_tree ct).
Proof.
  intros R G D. pose proof (reachable_inv _ R) as IV. pose proof (inv_wf _ IV) as W.
  destruct (inv_size _ IV _ _ G) as (B & x & Ex & SZ).
  destruct (tree_exists _ _ _ W Ex) as (t & T).
  destruct (tree_data_ok _ _ _ T (List.length (w_nodes w)) (labels_length _ _ _ W T)) as (d0 & TD & D0).
  pose proof (data_of_fun _ _ _ D _ D0) as <-.
  destruct (make_coarse_ok d) as (h & ct & MC & DC & CC & RC).
  destruct (serialise_layout ct wrap) as (out & SE & L).
  assert (all_nodes parsed_node d) as PN by (eapply data_of_all; [|exact D]; apply (inv_props _ IV)).
  exists ct, out. split; [|split; [exact L|split; [exact DC|split]]].
  - unfold serialise_game. rewrite TD. cbn [bind]. rewrite MC. cbn [bind].
    rewrite (read_coarse_ok h ct O (ntree_size d) RC (denotes_size _ _ DC)). cbn [bind]. exact SE.
  - eapply denotes_ascii; eauto. eapply data_of_all; [|exact D]. intros n y Ey. destruct (inv_props _ IV _ _ Ey) as [_ F].
    unfold ascii_idents. eapply Forall_impl; [|exact F]. intros [k vs] ((_ & U) & _). apply upper_ascii, U.
  - intros N. eapply denotes_good; eauto. apply named_good; auto.
Qed.

Definition recode (e e' : encoding) (v : bytes) : bytes :=
  match py_decode e v with
  | Ok u => match py_encode e' u with Ok s => s | Err _ => [] end
  | Err _ => []
  end.

Lemma spells_valid e u s : spells e u s -> Forall valid_cp u.
Proof. intros S. apply spells_enc in S. apply S. Qed.

Lemma recode_ok e e' v v' : recoded e e' v v' -> recode e e' v = v'.
Proof.
  intros (u & A & B). unfold recode. rewrite (proj2 (decode_spells e v u) A).
  rewrite (proj2 (encode_spells e' v' u (spells_valid _ _ _ A)) B). reflexivity.
Qed.

Lemma recodable_dec e e' v : {v' | recoded e e' v v'} + {~ exists v', recoded e e' v v'}.
Proof.
  destruct (py_decode e v) as [u|x] eqn:D.
  - pose proof (proj1 (decode_spells _ _ _) D) as S. destruct (py_encode e' u) as [s|x] eqn:E.
    + left. exists s, u. split; auto. apply encode_spells; auto. eapply spells_valid; eauto.
    + right. intros (v' & u' & A & B). apply decode_spells in A. rewrite D in A. injection A as <-.
      apply encode_spells in B; [congruence|]. eapply spells_valid; eauto.
  - right. intros (v' & u' & A & B). apply decode_spells in A. congruence.
Qed.

Lemma values_dec (P : bytes -> Prop) : (forall v, {P v} + {~ P v}) ->
  forall d, (forall v, value_in d v -> P v) \/ exists v, value_in d v /\ ~ P v.
Proof.
  intros dec d. induction d as [m ks IH] using ntree_ind'.
  assert ((forall k vs v, In (k, vs) m -> In v vs -> P v) \/ exists k vs v, In (k, vs) m /\ In v vs /\ ~ P v) as [A|(k & vs & v & I & Iv & N)].
  { clear IH. induction m as [|[k vs] m IHm].
    - left. intros ? ? ? [].
    - assert ((forall v, In v vs -> P v) \/ exists v, In v vs /\ ~ P v) as [A|(v & I & N)].
      { clear IHm. induction vs as [|v vs IHv]; [left; intros ? []|]. destruct (dec v) as [p|n].
        - destruct IHv as [A|(v' & I & N)]; [left; intros ? [<-|?]; auto|right; exists v'; split; [right|]; auto].
        - right. exists v. split; [left|]; auto. }
      + destruct IHm as [B|(k' & vs' & v' & I & Iv & N)].
        * left. intros k' vs' v' [E|I] Iv; [injection E as <- <-; auto|eauto].
        * right. exists k', vs', v'. split; [right|]; auto.
      + right. exists k, vs, v. split; [left|]; auto. }
  - assert ((forall t v, In t ks -> value_in t v -> P v) \/ exists t v, In t ks /\ value_in t v /\ ~ P v) as [B|(t & v & I & V & N)].
    { clear A. induction IH as [|t ks Ht _ IHk]; [left; intros ? ? []|]. destruct Ht as [A|(v & V & N)].
      - destruct IHk as [B|(t' & v & I & V & N)]; [left; intros t' v [<-|I] V; eauto|right; exists t', v; split; [right|]; auto].
      - right. exists t, v. split; [left|]; auto. }
    + left. intros v V. inversion V; subst; eauto.
    + right. exists v. split; auto. eapply vi_below; eauto.
  - right. exists v. split; auto. eapply vi_here; eauto.
Qed.

Lemma encoding_name_inj e e' : encoding_name e = encoding_name e' -> e = e'.
Proof. destruct e, e'; auto; discriminate. Qed.

Lemma C67_outcome_proof reg w i g d e2 wrap :
  knows_names reg -> reachable_world w -> game_at w i = Some g -> data_of w (g_root g) d ->
  get_charset reg w g = Ok (encoding_name e2) -> e2 <> game_encoding g ->
  match save_game reg w g wrap with
  | Saved out => forall v, value_in d v -> exists v', recoded (game_encoding g) e2 v v'
  | UnicodeDecodeError => exists v, value_in d v /\ ~ proper (game_encoding g) v
  | UnicodeEncodeError => (forall v, value_in d v -> proper (game_encoding g) v) /\
                          exists v, value_in d v /\ ~ exists v', recoded (game_encoding g) e2 v v'
  | NotSaved _ => False
  end.
Proof.
  intros K R G D C NE. destruct (serialise_shape_of w i g d wrap R G D) as (ct & out & SE & L & DC & AT & _).
  set (e1 := game_encoding g) in *. unfold save_game. rewrite C, SE. fold e1. cbv zeta.
  destruct (bytes_eqb_spec (encoding_name e2) (encoding_name e1)) as [X|_]; [apply encoding_name_inj in X; congruence|].
  rewrite !K. pose proof (denotes_values ct d) as DV.
  destruct (py_decode e1 out) as [u|x] eqn:PD.
  - apply decode_spells in PD. assert (forall v, value_in d v -> proper e1 v) as PR.
    { intros v V. apply (proj1 (text_proper e1 ct out AT L)); [exists u; auto|]. apply DV; auto. }
    destruct (py_encode e2 u) as [s|x] eqn:PE.
    + apply encode_spells in PE; [|eapply spells_valid; eauto]. intros v V.
      apply (proj1 (text_recodable e1 e2 ct out AT L)); [exists s, u; auto|]. apply DV; auto.
    + split; auto. destruct (values_dec (fun v => exists v', recoded e1 e2 v v')) with (d := d) as [A|B]; [|exfalso|exact B].
      { intros v. destruct (recodable_dec e1 e2 v) as [[v' H]|N]; [left; eauto|right; auto]. }
      destruct (proj2 (text_recodable e1 e2 ct out AT L)) as (s' & u' & S1 & S2).
      { intros v V. apply A. apply DV; auto. }
      apply decode_spells in PD. apply decode_spells in S1. rewrite PD in S1. injection S1 as <-.
      apply encode_spells in S2; [congruence|]. eapply spells_valid, decode_spells; eauto.
  - destruct (values_dec (proper e1)) with (d := d) as [A|B]; [|exfalso|exact B].
    { intros v. destruct (recodable_dec e1 e1 v) as [[v' H]|N]; [left; apply proper_recoded; eauto|right; rewrite proper_recoded; auto]. }
    destruct (proj2 (text_proper e1 ct out AT L)) as (u & S).
    { intros v V. apply A. apply DV; auto. }
    apply decode_spells in S. congruence.
Qed.

(** The text written, and what loading it gives. *)
Lemma C67_load_proof reg w i g d e2 wrap out :
  knows_names reg -> reachable_world w -> game_at w i = Some g -> data_of w (g_root g) d -> all_named d ->
  get_charset reg w g = Ok (encoding_name e2) -> e2 <> game_encoding g ->
  save_game reg w g wrap = Saved out ->
  forall w0, reachable_world w0 -> exists w1 g' d',
      load_string w0 out e2 false = (w1, Ok tt) /\
      game_at w1 (List.length (w_games w0)) = Some g' /\
      g_pres g' = new_presenter (g_size g) e2 /\ data_of w1 (g_root g') d' /\
      recoded_tree (game_encoding g) e2 d d' /\
      (forall n x, node_at w0 n = Some x -> node_at w1 n = Some x) /\
      (forall j gj, game_at w0 j = Some gj -> game_at w1 j = Some gj) /\
      (names_charset reg match d with NT m _ => m end e2 -> from_string reg w0 out None = (w1, Ok tt)).
Proof.
  intros K R G D N C NE SV w0 R0.
  pose proof (C67_outcome_proof reg w i g d e2 wrap K R G D C NE) as OC. rewrite SV in OC.
  destruct (serialise_shape_of w i g d wrap R G D) as (ct & text & SE & L & DC & AT & GT). specialize (GT N).
  set (e1 := game_encoding g) in *. unfold save_game in SV. rewrite C, SE in SV. fold e1 in SV. cbv zeta in SV.
  destruct (bytes_eqb_spec (encoding_name e2) (encoding_name e1)) as [X|_]; [apply encoding_name_inj in X; congruence|].
  rewrite !K in SV. destruct (py_decode e1 text) as [u|] eqn:PD; [|discriminate].
  destruct (py_encode e2 u) as [s|] eqn:PE; [|discriminate]. injection SV as ->.
  apply decode_spells in PD. apply encode_spells in PE; [|eapply spells_valid; eauto].
  assert (recoded e1 e2 text out) as RT by (exists u; auto).
  assert (forall v, value_in d v -> recoded e1 e2 v (recode e1 e2 v)) as RV.
  { intros v V. destruct (OC v V) as (v' & Rv). rewrite (recode_ok _ _ _ _ Rv). exact Rv. }
  assert (forall v, cvalue ct v -> recoded e1 e2 v (recode e1 e2 v)) as RC.
  { intros v V. apply RV. eapply denotes_values; eauto. }
  set (f := recode e1 e2) in *.
  assert (good_tree (tmap f ct)) as GT' by (eapply tmap_good; eauto).
  destruct (layout_recoded e1 e2 (tree_pieces ct ++ [[char_lf]]) text (tree_pieces (tmap f ct) ++ [[char_lf]]) L) as (out' & L' & RO).
  { apply Forall2_app; [apply tree_recoded; auto|]. constructor; [apply recoded_ascii; [ascii_lit|auto]|constructor]. }
  assert (out' = out) as -> by (eapply recoded_fun; eauto).
  apply layout_split in L'. destruct L' as (o & b & -> & La & Lb). 
  assert (parse_sgf_game (o ++ b) = Ok (norm (tmap f ct))) as PE2.
  { unfold parse_sgf_game. pose proof (parse_at_tree (tmap f ct) o [] b GT') as P. cbn [app] in P.
    rewrite P; [reflexivity|constructor|exact La]. }
  pose proof (norm_same _ GT') as ST.
  destruct (C11_game_proof (o ++ b)) as [(t2 & E2 & PT)|E2]; [|congruence]. rewrite PE2 in E2. injection E2 as <-.
  set (t' := norm (tmap f ct)) in *.
  pose proof (reachable_inv _ R) as IV. destruct (inv_size _ IV _ _ G) as (B & x & Ex & SZ).
  assert (exists ks, d = NT (t_props x) ks) as (ks & Ed).
  { inversion D as [? y ts Ey F]; subst. rewrite Ex in Ey. injection Ey as <-. eauto. }
  assert (exists sq ch, ct = CT (t_props x :: sq) ch) as (sq & ch & Ect).
  { subst d. inversion DC; subst; eauto. }
  assert (exists m' sq' ch', t' = CT (m' :: sq') ch' /\ same_node (vmap f (t_props x)) m') as (m' & sq2 & ch' & Et & SN).
  { rewrite Ect in ST. cbn [tmap map] in ST. inversion ST as [? ? ? ? Fs Fc E1 E2]; subst. inversion Fs; subst. eauto 6. }
  assert (forall vs, dget (str "SZ") (t_props x) = Some vs -> exists v r, vs = v :: r /\ py_int v = Ok (g_size g) /\ f v = v) as FS.
  { intros vs E. unfold sz_agrees in SZ. rewrite E in SZ. destruct SZ as (v & r & -> & Pv). exists v, r. split; auto. split; auto.
    assert (value_in d v) as V by (subst d; eapply vi_here; [apply dget_In; exact E|left; auto]).
    eapply recoded_ascii_only; [apply RV, V|]. eapply py_int_ascii; eauto. }
  destruct (load_game_ok w0 t' e2 (g_size g) m' sq2 (reachable_inv _ R0) PT ltac:(rewrite Et; reflexivity))
    as (w1 & nt & LE & DN & G1 & D1 & K1 & K2); auto.
  { rewrite <- lookup_dget, <- SN, lookup_vmap, lookup_dget. unfold sz_agrees in SZ.
    destruct (dget (str "SZ") (t_props x)) as [vs|] eqn:E; cbn [option_map]; [|congruence].
    destruct (FS vs eq_refl) as (v & r & -> & Pv & Fv). cbn [map]. rewrite Fv. exact Pv. }
  exists w1, (mkGame (List.length (w_nodes w0)) (new_presenter (g_size g) e2)), nt.
  split; [unfold load_string; rewrite PE2; exact LE|]. split; auto. split; [reflexivity|]. split; auto.
  split; [|split; [auto|split; [auto|]]].
  - eapply nmap_recoded; [exact RV|]. eapply denotes_same; [apply denotes_nmap; exact DC|exact DN|exact ST].
  - intros NC. unfold from_string. rewrite PE2, Et. cbn [c_sequence]. subst d.
    assert ((do name <- declared_charset m' None; presenter_encoding reg name) = Ok e2) as ->; [|rewrite Et in LE; exact LE].
    unfold declared_charset. rewrite <- lookup_dget, <- SN, lookup_vmap. unfold names_charset in NC.
    destruct (lookup (str "CA") (t_props x)) as [vs|] eqn:LC; cbn [option_map].
    + destruct NC as (n & -> & PN & RN). cbn [map bind].
      assert (value_in (NT (t_props x) ks) n) as V by (eapply vi_here; [apply lookup_in; exact LC|left; auto]).
      assert (f n = n) as ->.
      { eapply recoded_ascii_only; [apply RV, V|]. eapply Forall_impl; [|exact PN]. cbn. lia. }
      unfold presenter_encoding. assert (existsb (fun c => ord c =? 0) n = false) as ->; [|rewrite RN; reflexivity].
      apply not_true_iff_false. intros H. apply existsb_exists in H. destruct H as (c & I & Z0).
      unfold plain_name in PN. rewrite Forall_forall in PN. apply PN in I. lia.
    + subst e2. cbn [bind]. unfold presenter_encoding. change (existsb _ (str "ISO-8859-1")) with false. cbv iota.
      change (str "ISO-8859-1") with (encoding_name ISO_8859_1). rewrite K. reflexivity.
Qed.

(** * Charset names *)

Lemma normalise_proof reg s : normalise_charset_name reg s =
  if existsb (fun c => ord c =? 0) s then NulInName
  else match reg s with None => UnknownCharset | Some e => Charset (encoding_name e) end.
Proof.
  unfold normalise_charset_name. destruct (existsb _ s); auto. destruct (reg s) as [e|]; auto. destruct e; vm_compute; reflexivity.
Qed.

Lemma plain_no_nul n : plain_name n -> existsb (fun c => ord c =? 0) n = false.
Proof.
  intros P. apply not_true_iff_false. intros H. apply existsb_exists in H. destruct H as (c & I & Z0).
  unfold plain_name in P. rewrite Forall_forall in P. apply P in I. lia.
Qed.

Lemma plain_simple n : plain_name n -> simpletext_value n = n.
Proof.
  intros P. rewrite simpletext_value_chars.
  assert (wnorm n = n) as ->.
  { eapply text_norm_fun; [apply (wnorm_spec _ _ (le_n _))|]. apply text_norm_id. eapply Forall_impl; [|exact P].
    intros c (H & _) I. simpl in I. repeat destruct I as [<-|I]; auto; vm_compute in H; destruct H as [H _]; apply H; reflexivity. }
  induction P as [|c n (H & N1 & N2) P IH]; auto. cbn [ctext].
  destruct (ceqb_spec c char_bs) as [->|_]; [contradiction N1; reflexivity|].
  destruct (ceqb_spec c char_lf) as [->|_]; [vm_compute in H; destruct H as [H _]; contradiction H; reflexivity|].
  cbn [app]. rewrite IH. reflexivity.
Qed.

Lemma plain_interpret n x : plain_name n -> interpret_simpletext n x = Ok n.
Proof.
  intros P. unfold interpret_simpletext. rewrite plain_simple by auto.
  assert (ascii_only n) as A by (eapply Forall_impl; [|exact P]; cbn; lia).
  assert (spells (c_encoding x) (map ord n) n) as S.
  { apply spells_enc. clear P. set (e := c_encoding x). clearbody e. induction A as [|c n L A (F & IH)]; [split; [apply fits_nil|destruct e; reflexivity]|].
    cbn [map]. pose proof (ord_range c). split; [apply fits_cons; split; auto; apply fits_low; lia|].
    rewrite enc_low by lia. rewrite chr_ord. congruence. }
  unfold transcode. rewrite (proj2 (decode_spells _ _ _) S). cbn [bind].
  assert (spells UTF_8 (map ord n) n) as S8.
  { apply spells_enc. clear S P. induction A as [|c n L A (F & IH)]; [split; [apply fits_nil|reflexivity]|].
    cbn [map]. pose proof (ord_range c). split; [apply fits_cons; split; auto; apply fits_low; lia|].
    rewrite enc_low by lia. rewrite chr_ord. congruence. }
  destruct (c_encoding x); auto; (apply encode_spells; [eapply spells_valid; eauto|exact S8]).
Qed.

Lemma C67_charset_proof reg w g x pr e : node_at w (g_root g) = Some x -> pres_of w x = Some pr ->
  effective_type pr (str "CA") = Ok PT_simpletext -> names_charset reg (t_props x) e ->
  get_charset reg w g = Ok (encoding_name e).
Proof.
  intros Ex Ep Et NC. unfold get_charset, get_prop, get_raw_list. rewrite Ex. unfold names_charset in NC. rewrite lookup_dget in NC.
  destruct (dget (str "CA") (t_props x)) as [vs|]; cbn [bind]; [|subst e; reflexivity].
  destruct NC as (n & -> & P & RN). rewrite Ep. unfold interpret. rewrite Et. cbn [bind interpret_as_type uses_list interpret_single].
  rewrite plain_interpret by auto. cbn [bind]. rewrite normalise_proof, plain_no_nul, RN by auto. reflexivity.
Qed.

Lemma C67_same_proof reg w i g wrap : reachable_world w -> game_at w i = Some g ->
  get_charset reg w g = Ok (encoding_name (game_encoding g)) ->
  exists out, serialise_game w g wrap = Ok out /\ save_game reg w g wrap = Saved out.
Proof.
  intros R G C. destruct (data_exists w i g R G) as (d & D).
  destruct (serialise_shape_of w i g d wrap R G D) as (ct & out & SE & _). exists out. split; auto.
  unfold save_game. rewrite C, SE. cbv zeta. rewrite bytes_eqb_refl. reflexivity.
Qed.

(** * The result of saving, in full *)

Lemma C67_saved_proof reg w i g d e2 wrap :
  knows_names reg -> reachable_world w -> game_at w i = Some g -> data_of w (g_root g) d ->
  get_charset reg w g = Ok (encoding_name e2) -> e2 <> game_encoding g ->
  match save_game reg w g wrap with
  | Saved out => (forall v, value_in d v -> exists v', recoded (game_encoding g) e2 v v') /\
                 exists text, serialise_game w g wrap = Ok text /\ recoded (game_encoding g) e2 text out
  | UnicodeDecodeError => exists v, value_in d v /\ ~ proper (game_encoding g) v
  | UnicodeEncodeError => (forall v, value_in d v -> proper (game_encoding g) v) /\
                          exists v, value_in d v /\ ~ exists v', recoded (game_encoding g) e2 v v'
  | NotSaved _ => False
  end.
Proof.
  intros K R G D C NE. pose proof (C67_outcome_proof reg w i g d e2 wrap K R G D C NE) as OC.
  destruct (save_game reg w g wrap) as [out| | |x] eqn:SV; auto. split; auto.
  destruct (serialise_shape_of w i g d wrap R G D) as (ct & text & SE & _). exists text. split; auto.
  unfold save_game in SV. rewrite C, SE in SV. cbv zeta in SV.
  destruct (bytes_eqb_spec (encoding_name e2) (encoding_name (game_encoding g))) as [X|_]; [apply encoding_name_inj in X; congruence|].
  rewrite !K in SV. destruct (py_decode (game_encoding g) text) as [u|] eqn:PD; [|discriminate].
  destruct (py_encode e2 u) as [s|] eqn:PE; [|discriminate]. injection SV as <-.
  apply decode_spells in PD. apply encode_spells in PE; [|eapply spells_valid; eauto]. exists u. auto.
Qed.

Lemma C67_unknown_proof reg w g x pr n wrap : node_at w (g_root g) = Some x -> pres_of w x = Some pr ->
  effective_type pr (str "CA") = Ok PT_simpletext -> lookup (str "CA") (t_props x) = Some [n] -> plain_name n -> reg n = None ->
  get_charset reg w g = Err ValueError /\ save_game reg w g wrap = NotSaved ValueError.
Proof.
  intros Ex Ep Et L P RN.
  assert (get_charset reg w g = Err ValueError) as E.
  { unfold get_charset, get_prop, get_raw_list. rewrite Ex. rewrite lookup_dget in L. rewrite L. cbn [bind]. rewrite Ep.
    unfold interpret. rewrite Et. cbn [bind interpret_as_type uses_list interpret_single].
    rewrite plain_interpret by auto. cbn [bind]. rewrite normalise_proof, plain_no_nul, RN by auto. reflexivity. }
  split; auto. unfold save_game. rewrite E. reflexivity.
Qed.

(** * Loading *)

Lemma has_nul_exists n : has_nul n <-> existsb (fun c => ord c =? 0) n = true.
Proof.
  unfold has_nul. rewrite existsb_exists. split; intros (c & I & E); exists c; split; auto; lia.
Qed.

Lemma C67_from_string_proof reg w s override : 
  match parse_sgf_game s with
  | Err _ => from_string reg w s override = (w, Err ValueError)
  | Ok t => exists m sq n, c_sequence t = m :: sq /\ reads_under override m n /\
      (forall e, reg n = Some e -> ~ has_nul n ->
         from_string reg w s override = load_string w s e (match override with Some _ => true | None => false end)) /\
      (reg n = None -> ~ has_nul n -> from_string reg w s override = (w, Err ValueError)) /\
      (has_nul n -> exists ex, (ex = ValueError \/ ex = TypeError) /\ from_string reg w s override = (w, Err ex))
  end.
Proof.
  destruct (C11_game_proof s) as [(t & E & PT)|E]; rewrite E; [|unfold from_string; rewrite E; reflexivity].
  inversion PT as [? ? Nn Fn _]; subst. destruct sq as [|m sq]; [congruence|].
  inversion Fn as [|? ? PN _]; subst.
  assert (forall k vs, dget k m = Some vs -> exists v r, vs = v :: r) as NE.
  { intros k vs H. destruct PN as [_ F]. apply dget_In in H. rewrite Forall_forall in F. specialize (F _ H).
    destruct F as (_ & N & _). destruct vs; [contradiction N; reflexivity|eauto]. }
  assert (exists n, reads_under override m n /\ declared_charset m override = Ok n) as (n & RU & DC).
  { destruct override as [n|]; [exists n; split; [constructor|reflexivity]|]. cbn [declared_charset].
    destruct (dget (str "CA") m) as [vs|] eqn:EC.
    - destruct (NE _ _ EC) as (v & r & ->). exists v. split; [|reflexivity]. eapply ru_declared. rewrite lookup_dget. exact EC.
    - exists (str "ISO-8859-1"). split; [|reflexivity]. apply ru_default. rewrite lookup_dget. exact EC. }
  exists m, sq, n. split; [reflexivity|]. split; [exact RU|].
  unfold from_string, load_string. rewrite E. cbn [c_sequence]. rewrite DC. cbn [bind]. unfold presenter_encoding.
  set (sz := match dget (str "SZ") m with None => Ok 19 | Some [] => Err IndexError | Some (v :: _) => py_int v end).
  assert (forall ex, sz = Err ex -> ex = ValueError) as SZE.
  { intros ex. unfold sz. destruct (dget (str "SZ") m) as [vs|] eqn:ES; [|discriminate].
    destruct (NE _ _ ES) as (v & r & ->). intros HE; eapply py_int_err; exact HE. }
  split; [|split].
  - intros e RN NN. destruct (existsb _ n) eqn:X; [apply has_nul_exists in X; contradiction|]. rewrite RN. reflexivity.
  - intros RN NN. destruct (existsb _ n) eqn:X; [apply has_nul_exists in X; contradiction|]. rewrite RN.
    destruct sz as [size|ex]; [|rewrite (SZE ex eq_refl); reflexivity]. destruct (negb _); reflexivity.
  - intros NN. apply has_nul_exists in NN. rewrite NN.
    destruct sz as [size|ex]; [|exists ex; rewrite (SZE ex eq_refl); auto].
    destruct (negb _); [exists ValueError|exists TypeError]; auto.
Qed.

Lemma C67_override_proof w s e w1 : reachable_world w -> load_string w s e true = (w1, Ok tt) ->
  exists w0 g, load_string w s e false = (w0, Ok tt) /\ game_at w0 (List.length (w_games w)) = Some g /\
    g_pres g = new_presenter (g_size g) e /\
    only_changes w0 (g_root g) [str "CA"] w1 /\
    get_raw_list w1 (g_root g) (str "CA") = Ok [encoding_name e].
Proof.
  intros R L. unfold load_string in *. destruct (C11_game_proof s) as [(t & E & PT)|E]; rewrite E in *; [|discriminate].
  destruct t as [sq ch]. inversion PT as [? ? Nn Fn _]; subst. destruct sq as [|m sq]; [congruence|].
  set (t := CT (m :: sq) ch) in *.
  destruct (match dget (str "SZ") m with None => Ok 19 | Some [] => Err IndexError | Some (v :: _) => py_int v end) as [size|ex] eqn:SZ;
    [|unfold load_game in L; cbn [c_sequence t] in L; rewrite SZ in L; discriminate].
  destruct ((1 <=? size) && (size <=? 26)) eqn:B;
    [|unfold load_game in L; cbn [c_sequence t] in L; rewrite SZ, B in L; discriminate].
  destruct (load_game_ok w t e size m sq (reachable_inv _ R) PT eq_refl SZ ltac:(lia)) as (w0 & nt & LE & DN & G0 & D0 & K1 & K2).
  exists w0, (mkGame (List.length (w_nodes w)) (new_presenter size e)). split; auto. split; auto. split; [reflexivity|].
  assert (reachable_world w0) as R0.
  { replace w0 with (fst (exec w (LoadString s e false))); [constructor; auto; split; constructor|].
    cbn [exec]. unfold load_string. rewrite E, LE. reflexivity. }
  assert (set_raw w0 (List.length (w_nodes w)) (str "CA") (encoding_name e) = (w1, Ok tt)) as SR.
  { unfold load_game in L, LE. cbn [c_sequence t] in L, LE. rewrite SZ, B in L, LE. cbn [negb] in L, LE.
    destruct (ntree_of t) as [props ks]. cbv zeta in L, LE. unfold done in LE. injection LE as LE. rewrite <- LE. exact L. }
  assert ((List.length (w_nodes w) < List.length (w_nodes w0))%nat) as LT.
  { inversion D0 as [? x ts Ex F]; subst. unfold node_at in Ex. apply nth_error_Some. congruence. }
  rewrite (C20_set_raw_proof w0 _ (str "CA") (encoding_name e) R0 LT) in SR.
  destruct (C20_set_raw_list_proof w0 _ (str "CA") [encoding_name e] R0 LT) as [OK _].
  destruct OK as (w2 & E2 & G2 & OC2).
  { split; [apply good_ident_valid; reflexivity|]. split; [discriminate|]. split; [|discriminate].
    constructor; [|constructor]. apply good_value_valid. destruct e; reflexivity. }
  rewrite E2 in SR. injection SR as ->. auto.
Qed.

(** * Reading values *)

Lemma C67_values_proof w n x g w' n' x' g' e' k v : 
  node_at w n = Some x -> game_at w (t_owner x) = Some g -> node_at w' n' = Some x' -> game_at w' (t_owner x') = Some g' ->
  g_size g <= 26 ->
  g_pres g' = mkPres (mkCtx (g_size g) e') (pr_types (g_pres g)) (pr_default (g_pres g)) ->
  (forall k, match lookup k (t_props x), lookup k (t_props x') with
             | None, None => True
             | Some vs, Some vs' => Forall2 (recoded (game_encoding g) e') vs vs'
             | _, _ => False
             end) ->
  (get_prop w n k = Ok v <-> get_prop w' n' k = Ok v).
Proof.
  intros Ex G Ex' G' B P H. unfold get_prop, get_raw_list, pres_of. rewrite Ex, Ex', G, G'. cbn [option_map]. rewrite P.
  specialize (H k). rewrite !lookup_dget in H. destruct (dget k (t_props x)) as [vs|], (dget k (t_props x')) as [vs'|]; try contradiction; cbn [bind].
  - pose proof (interpret_same (game_encoding g) e' (g_size g) (pr_types (g_pres g)) (pr_default (g_pres g)) k vs vs' v B H) as I.
    unfold game_encoding, g_size in *. destruct (g_pres g) as [[s e] ty df]. exact I.
  - split; discriminate.
Qed.
