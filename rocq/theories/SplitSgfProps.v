(** C76: splitting an SGF collection into files (gomill_examples/split_sgf_collection.py). *)
From Verif Require Import Base Bytes PyStr Dict SgfGrammarModel SgfGrammarSpec SgfErrorProofs SgfPropsModel SgfPropsSpec
  SgfTreeModel SgfTreeSpec SgfCharsetModel SgfCharsetSpec RingFilesModel RingFilesSpec RingFilesProofs SplitSgfModel SplitSgfSpec SplitSgfProofs.

(** The files written, in order, are for the games of the collection, in order; each has
    the name root_number.ext in the directory of the source.  What is written for a game with
    named properties and a plainly named, known encoding is a copy of the game: the same tree
    with the same properties, but for the root's comment, which has the note added. *)
Theorem C76_files_are_copies : forall reg opens pathname src d f root ext files e,
  knows_names reg -> names pathname d f -> has_extension f root ext ->
  split_sgf_collection reg opens pathname src = (files, e) ->
  forall i path text, nth_error files i = Some (path, text) ->
  names path d (part_name root ext (part_number i)) /\ opens path = true /\
  exists games t, parse_sgf_collection src = Ok games /\ nth_error games i = Some t /\
    forall enc m ks, proper_game reg t enc m ks -> is_copy enc m ks (part_note f (part_number i)) text.
Proof.
  intros reg opens p src d f root ext files e KN NM HE E i path text NT.
  unfold split_sgf_collection in E. rewrite (split_names _ _ _ NM), (has_splitext _ _ _ HE) in E.
  destruct (C11_collection_proof src) as [(games & PE & _ & PT)|PE]; rewrite PE in E; [|injection E as <- <-; destruct i; discriminate].
  destruct (split_games_proof reg opens d f root ext games 1 files e E) as (F & _).
  destruct (F _ _ NT) as (t & Nt & PP & OP & W). cbn [fst snd] in *. replace (1 + Z.of_nat i) with (part_number i) in * by (unfold part_number; lia).
  destruct (names_dir _ _ _ NM) as (PL & DR). destruct (part_plain f root ext (part_number i) PL (proj1 HE)) as (P1 & P2); [unfold part_number; lia|].
  split; [|split; [exact OP|]].
  - rewrite PP. apply (join_names d (part_name root ext (part_number i))); assumption.
  - exists games, t. split; [exact PE|]. split; [exact Nt|]. intros enc m ks PG.
    assert (parsed_tree t) as PTt by (rewrite Forall_forall in PT; apply PT; eapply nth_error_In; exact Nt).
    pose proof (split_game_proof reg (part_note f (part_number i)) t enc m ks KN PTt PG) as H.
    destruct W as [W|[W _]]; [change (split_note f) with (part_note f) in W; rewrite W in H; exact H|].
    change (split_note f) with (part_note f) in W; rewrite W in H; destruct H.
Qed.
Print Assumptions C76_files_are_copies.

(** If every game has named properties and a plainly named, known encoding: either all
    games are written, or the script stops at the first game that has a bad size, comment, or
    encoding for the note, or whose file can't be opened; the games before it are written. *)
Theorem C76_how_it_ends : forall reg opens pathname src d f root ext files e games,
  knows_names reg -> names pathname d f -> has_extension f root ext ->
  split_sgf_collection reg opens pathname src = (files, e) ->
  parse_sgf_collection src = Ok games -> (forall t, In t games -> exists enc m ks, proper_game reg t enc m ks) ->
  let n := List.length files in
  (e = Completed /\ n = List.length games) \/
  (e = Stopped /\ exists t enc m ks, nth_error games n = Some t /\ proper_game reg t enc m ks /\
     ((exists path, names path d (part_name root ext (part_number n)) /\ opens path = false) \/
      ~ (size_ok m /\ comment_ok enc m /\ note_ok enc (part_note f (part_number n))))).
Proof.
  intros reg opens p src d f root ext files e games KN NM HE E PE PG n.
  unfold split_sgf_collection in E. rewrite (split_names _ _ _ NM), (has_splitext _ _ _ HE), PE in E.
  destruct (C11_collection_proof src) as [(games' & PE' & _ & PT)|PE']; rewrite PE in PE'; [|discriminate]. injection PE' as <-. rewrite Forall_forall in PT.
  destruct (split_games_proof reg opens d f root ext games 1 files e E) as (F & EN). destruct e.
  - left. split; [reflexivity|]. exact (proj1 EN).
  - destruct EN.
  - right. split; [reflexivity|].
    destruct EN as [(t & Nt & H)|(b & t & _ & Nt & H)]; pose proof (nth_error_In _ _ Nt) as IN; destruct (PG _ IN) as (enc & m & ks & P).
    + exists t, enc, m, ks. split; [exact Nt|]. split; [exact P|]. fold n in H. replace (1 + Z.of_nat n) with (part_number n) in H by (unfold part_number; lia).
      destruct H as [H|(ex & H)].
      * left. exists (split_pathname d root ext (part_number n)). split; [|exact H].
        destruct (names_dir _ _ _ NM) as (PL & DR). destruct (part_plain f root ext (part_number n) PL (proj1 HE)) as (P1 & P2); [unfold part_number; lia|].
        apply (join_names d (part_name root ext (part_number n))); assumption.
      * right. pose proof (split_game_proof reg (part_note f (part_number n)) t enc m ks KN (PT _ IN) P) as S.
        change (split_note f) with (part_note f) in H. rewrite H in S. exact (proj2 S).
    + exfalso. pose proof (split_game_proof reg (split_note f (1 + Z.of_nat b)) t enc m ks KN (PT _ IN) P) as S. rewrite H in S. exact S.
Qed.
Print Assumptions C76_how_it_ends.

(** A text that isn't a collection gives no file. *)
Theorem C76_bad_collection : forall reg opens pathname src files e, split_sgf_collection reg opens pathname src = (files, e) ->
  (e = BadCollection <-> parse_sgf_collection src = Err ValueError) /\ (e = BadCollection -> files = []).
Proof.
  intros reg opens p src files e E. unfold split_sgf_collection in E. destruct (os_split p) as [d f]. destruct (splitext f) as [root ext].
  destruct (C11_collection_proof src) as [(games & PE & _)|PE]; rewrite PE in *.
  - destruct (split_games_proof reg opens d f root ext games 1 files e E) as (_ & EN). destruct e; [|destruct EN|]; (split; [split|]; discriminate).
  - injection E as <- <-. tauto.
Qed.
Print Assumptions C76_bad_collection.

(** The files have different names, and none has the name of the source. *)
Theorem C76_names_differ : forall reg opens pathname src d f files e, names pathname d f ->
  split_sgf_collection reg opens pathname src = (files, e) ->
  NoDup (map fst files) /\ forall path text d' f', In (path, text) files -> names path d' f' -> d' = d /\ f' <> f.
Proof.
  intros reg opens p src d f files e NM E. pose proof (splitext_has f) as HE. unfold split_sgf_collection in E. rewrite (split_names _ _ _ NM) in E.
  destruct (splitext f) as [root ext]. cbn [fst snd] in HE. destruct (names_dir _ _ _ NM) as (PL & DR).
  destruct (parse_sgf_collection src) as [games|]; [|injection E as <- <-; split; [constructor|intros ? ? ? ? []]].
  destruct (split_games_proof reg opens d f root ext games 1 files e E) as (F & _).
  assert (NA : forall i x, nth_error files i = Some x -> names (fst x) d (part_name root ext (part_number i))).
  { intros i x NX. destruct (F _ _ NX) as (t & _ & PP & _). rewrite PP. replace (1 + Z.of_nat i) with (part_number i) in * by (unfold part_number; lia).
    destruct (part_plain f root ext (part_number i) PL (proj1 HE)) as (P1 & P2); [unfold part_number; lia|]. apply (join_names d (part_name root ext (part_number i))); assumption. }
  split.
  - apply NoDup_nth_error. intros i j L EQ. rewrite map_length in L.
    destruct (nth_error files i) as [x|] eqn:NX; [|apply nth_error_None in NX; lia].
    rewrite !nth_error_map, NX in EQ. cbn [option_map] in EQ. destruct (nth_error files j) as [y|] eqn:NY; [|discriminate]. cbn [option_map] in EQ. injection EQ as EQ.
    pose proof (NA _ _ NX) as A. pose proof (NA _ _ NY) as B. rewrite EQ in A. destruct (names_fun _ _ _ _ _ A B) as (_ & PN). apply part_inj in PN. unfold part_number in PN. lia.
  - intros path text d' f' I N'. apply In_nth_error in I. destruct I as (i & NX). pose proof (NA _ _ NX) as A. cbn [fst] in A. destruct (names_fun _ _ _ _ _ N' A) as (-> & ->).
    split; [reflexivity|]. rewrite (proj1 HE). apply part_new. unfold part_number. lia.
Qed.
Print Assumptions C76_names_differ.

(** ** Examples *)
Definition demo_reg : registry := fun n => if bytes_eqb n (str "UTF-8") then Some UTF_8 else if bytes_eqb n (str "ISO-8859-1") then Some ISO_8859_1 else
  if bytes_eqb n (str "ASCII") then Some ASCII else None.
Example demo_knows : knows_names demo_reg.
Proof. intros []; reflexivity. Qed.
Definition demo_src : bytes := str "(;SZ[9]C[one](;B[aa])(;B[bb]))" ++ [char_lf] ++ str "junk(;KM[6.5];W[dd])".
Example C76_demo :
  split_sgf_collection demo_reg (fun _ => true) (str "a/b/x.sgf") demo_src =
    ([(str "a/b/x_1.sgf", str "(;C[one" ++ [char_lf; char_lf] ++ str "Split from x.sgf (game 1)]SZ[9](;B[aa])(;B[bb]))" ++ [char_lf]);
      (str "a/b/x_2.sgf", str "(;C[Split from x.sgf (game 2)]KM[6.5];W[dd])" ++ [char_lf])], Completed).
Proof. vm_compute. reflexivity. Qed.
Example C76_demo_proper : forall t games, parse_sgf_collection demo_src = Ok games -> In t games -> exists enc m ks, proper_game demo_reg t enc m ks.
Proof.
  intros t games E I. vm_compute in E. injection E as <-. destruct I as [<-|[<-|[]]]; exists ISO_8859_1; do 2 eexists;
    (split; [repeat (econstructor; try reflexivity)|split; [repeat (constructor; try (simpl; intuition discriminate))|reflexivity]]).
Qed.
(** It stops at a bad game. *)
Example C76_demo_stops :
  split_sgf_collection demo_reg (fun _ => true) (str "x") (str "(;B[aa])(;SZ[99])(;B[cc])") =
    ([(str "x_1", str "(;B[aa]C[Split from x (game 1)])" ++ [char_lf])], Stopped) /\
  split_sgf_collection demo_reg (fun _ => true) (str "x") (str "nothing") = ([], BadCollection).
Proof. vm_compute. split; reflexivity. Qed.
