(** C83: the ringmaster's live display, to the byte. *)
From Verif Require Import Base Bytes PyStr RingModel RunLogModel ScreenModel ScreenSpec.
Open Scope Z_scope.

Lemma perform_all_app o us vs k : perform_all o (us ++ vs) k = perform_all o vs (perform_all o us k).
Proof.
  revert k. induction us as [|u us IH]; intros k; [reflexivity|]. cbn [app perform_all].
  destruct (perform o u k) as [[k' d] e]. apply IH.
Qed.
Lemma refreshes_app us vs : refreshes (us ++ vs) = refreshes us ++ refreshes vs.
Proof. induction us as [|[c|c s|w] us IH]; [reflexivity|exact IH|exact IH|]. cbn [app refreshes]. rewrite IH. reflexivity. Qed.

Lemma get_put_same c l b : get_box c (put_box c l b) = l. Proof. destruct c; reflexivity. Qed.
Lemma get_put_other c c' l b : c <> c' -> get_box c (put_box c' l b) = get_box c b. Proof. destruct c, c'; intros; try congruence; reflexivity. Qed.
Lemma channel_eq (c c' : channel) : {c = c'} + {c <> c'}. Proof. decide equality. Qed.

Lemma boxes_refresh o w k : k_boxes (fst (fst (perform o (URefresh w) k))) = k_boxes k.
Proof. cbn [perform]. destruct (clear_screen o w (k_method k)) as [[m d] [e|]]; reflexivity. Qed.

Lemma since_box o us c : since c us (get_box c (k_boxes (perform_all o us new_clearer))).
Proof.
  induction us as [|u us IH] using rev_ind; [destruct c; constructor|].
  rewrite perform_all_app. cbn [perform_all].
  destruct (perform o u (perform_all o us new_clearer)) as [[k' d] e] eqn:P.
  assert (k_boxes k' = k_boxes (fst (fst (perform o u (perform_all o us new_clearer))))) as -> by (rewrite P; reflexivity). clear P.
  destruct u as [c'|c' s|w].
  - cbn [perform fst k_boxes]. destruct (channel_eq c c') as [->|N].
    + rewrite get_put_same. apply si_clear.
    + rewrite get_put_other by exact N. apply si_other; [exact IH|congruence|congruence].
  - cbn [perform fst k_boxes]. destruct (channel_eq c c') as [->|N].
    + rewrite get_put_same. apply si_say. exact IH.
    + rewrite get_put_other by exact N. apply si_other; [exact IH|congruence|congruence].
  - rewrite boxes_refresh. apply si_other; [exact IH|congruence|congruence].
Qed.
Lemma since_fun c us l l' : since c us l -> since c us l' -> l = l'.
Proof.
  intros H. revert l'. induction H as [|us|us l s H IH|us l u H IH N1 N2]; intros l' H'; inversion H' as [E|us' E|us' k s' H2 E|us' k u' H2 N3 N4 E]; subst; try reflexivity;
   repeat match goal with
   | E : [] = ?a ++ [?b] |- _ => destruct a; discriminate E
   | E : ?a ++ [?b] = [] |- _ => destruct a; discriminate E
   | E : ?a ++ [?b] = ?c ++ [?d] |- _ => apply app_inj_tail in E; destruct E
   end; subst; try congruence.
  - injection H1 as ->. f_equal. apply IH. exact H2.
  - apply IH. exact H2.
Qed.

Lemma written_app a b : written (a ++ b) = written a ++ written b.
Proof. unfold written. rewrite map_app. apply concat_app. Qed.
Lemma last_n_spec {A} n (l : list A) : at_most_last n l (last_n n l).
Proof.
  unfold at_most_last, last_n. exists (firstn (List.length l - n) l). split; [symmetry; apply firstn_skipn|].
  rewrite skipn_length. split; [lia|]. intros NE.
  destruct (Nat.le_gt_cases (List.length l) n) as [L|L]; [|lia].
  exfalso. apply NE. replace (List.length l - n)%nat with 0%nat by lia. reflexivity.
Qed.
Lemma join_lines (l : list bytes) : l <> [] -> join [char_lf] l ++ [char_lf] = List.concat (map (fun s => s ++ [char_lf]) l).
Proof.
  induction l as [|a l IH]; [congruence|]. intros _. destruct l as [|b l]; [cbn; rewrite app_nil_r; reflexivity|].
  change (join [char_lf] (a :: b :: l)) with (a ++ [char_lf] ++ join [char_lf] (b :: l)).
  cbn [map List.concat]. rewrite <- !app_assoc. do 2 f_equal. rewrite IH by discriminate. cbn [map List.concat]. rewrite <- !app_assoc. reflexivity.
Qed.
Lemma print_box_part (h : option bytes) n (b : bool) (l : list bytes) : (0 < n)%nat ->
  part (match h with Some h => str "= " ++ h ++ str " = " ++ [char_lf] | None => [] end) n (if b then [char_lf] else []) l (written (print_box h n b l)).
Proof.
  intros N. destruct l as [|x l]; [constructor; reflexivity|]. unfold print_box. rewrite !written_app.
  assert (written [print (join [char_lf] (last_n n (x :: l)))] = List.concat (map (fun s => s ++ [char_lf]) (last_n n (x :: l)))) as ->.
  { unfold written, print. cbn [map List.concat]. rewrite app_nil_r. apply join_lines.
    intros E. apply (f_equal (@List.length _)) in E. unfold last_n in E. rewrite skipn_length in E. cbn [List.length] in E. lia. }
  assert (written match h with Some h0 => [print (str "= " ++ h0 ++ str " = ")] | None => [] end = match h with Some h => str "= " ++ h ++ str " = " ++ [char_lf] | None => [] end) as ->.
  { destruct h as [h|]; [|reflexivity]. unfold written, print. cbn [map List.concat]. rewrite app_nil_r, <- !app_assoc. reflexivity. }
  assert (written (if b then [print []] else []) = if b then [char_lf] else []) as -> by (destruct b; reflexivity).
  apply pa_some; [discriminate|apply last_n_spec].
Qed.

(** The method of clearing the screen, from the history. *)
Lemma method_spec o us : k_method (perform_all o us new_clearer) =
  match refreshes us with
  | [] => None
  | ws => Some (if o_tty o then if forallb (fun w => w) ws then ByCommand else ByNewlines else ByDelimiter)
  end.
Proof.
  induction us as [|u us IH] using rev_ind; [reflexivity|].
  rewrite perform_all_app, refreshes_app. cbn [perform_all].
  destruct u as [c|c s|w]; [cbn [perform k_method refreshes]; rewrite app_nil_r; exact IH| |].
  - cbn [perform k_method refreshes]; rewrite app_nil_r. exact IH.
  - cbn [refreshes]. cbn [perform].
    assert (forall r, match r ++ [w] with [] => None | ws => Some (if o_tty o then if forallb (fun w => w) ws then ByCommand else ByNewlines else ByDelimiter) end
                      = Some (if o_tty o then if forallb (fun w => w) r && w then ByCommand else ByNewlines else ByDelimiter)) as R.
    { intros r. replace (forallb (fun w0 : bool => w0) r && w) with (forallb (fun w0 : bool => w0) (r ++ [w])) by (rewrite forallb_app; cbn; destruct w; rewrite ?andb_true_r; reflexivity).
      destruct r; reflexivity. }
    rewrite R. rewrite IH. clear R IH.
    destruct (refreshes us) as [|x r]; unfold clear_screen; [|destruct (o_tty o), (forallb (fun w => w) (x :: r))]; try destruct (o_tty o); destruct w; destruct (o_lines o); reflexivity.
Qed.

(** Showing a screen: "clear" is run just if standard output is a terminal and the command has always
    worked; the bytes are a separator and then the four parts, each made from the messages given to
    its channel since it was last cleared. The separator is nothing if "clear" worked, 82 newlines if
    it has ever failed, and a line of 78 dashes if standard output isn't a terminal. *)
Theorem C83_screen o us w k ds : perform o (URefresh w) (perform_all o us new_clearer) = (k, ds, None) ->
  exists separator st rep res war st' rep' res' war',
    written ds = separator ++ st' ++ rep' ++ res' ++ war' /\
    separator = (if o_tty o then if forallb (fun w => w) (refreshes us ++ [w]) then [] else repeat char_lf 82
                 else repeat "-"%char 78 ++ [char_lf]) /\
    ran_clear ds = (if o_tty o && forallb (fun w => w) (refreshes us) then 1%nat else 0%nat) /\
    since Status us st /\ since ScreenReport us rep /\ since Results us res /\ since Warnings us war /\
    part [] 999 [char_lf] st st' /\ part [] 999 [char_lf] rep rep' /\
    part (str "= Results = " ++ [char_lf]) 6 [char_lf] res res' /\
    part (str "= Warnings = " ++ [char_lf]) 4 [] war war'.
Proof.
  cbn [perform]. rewrite method_spec. intros H.
  set (b := k_boxes (perform_all o us new_clearer)) in *.
  set (body := print_box None 999 true (b_status b) ++ print_box None 999 true (b_report b) ++
               print_box (Some (str "Results")) 6 true (b_results b) ++ print_box (Some (str "Warnings")) 4 false (b_warnings b)) in *.
  set (sep := if o_tty o then if forallb (fun w => w) (refreshes us ++ [w]) then [] else repeat char_lf 82 else repeat "-"%char 78 ++ [char_lf]).
  assert (exists d, ds = d ++ body /\ written d = sep /\ ran_clear d = (if o_tty o && forallb (fun w => w) (refreshes us) then 1%nat else 0%nat)) as (d & -> & WD & RD).
  { subst sep. rewrite forallb_app. cbn [forallb]. unfold clear_screen in H. destruct (refreshes us) as [|x r].
    - destruct (o_tty o), w, (o_lines o); try discriminate; apply pair_equal_spec in H; destruct H as [H _]; apply pair_equal_spec in H; destruct H as [_ <-]; eexists; (split; [reflexivity|split; reflexivity]).
    - destruct (o_tty o), (forallb (fun w => w) (x :: r)), w, (o_lines o); try discriminate; apply pair_equal_spec in H; destruct H as [H _]; apply pair_equal_spec in H; destruct H as [_ <-]; eexists; (split; [reflexivity|split; reflexivity]). }
  exists sep, (b_status b), (b_report b), (b_results b), (b_warnings b),
    (written (print_box None 999 true (b_status b))), (written (print_box None 999 true (b_report b))),
    (written (print_box (Some (str "Results")) 6 true (b_results b))), (written (print_box (Some (str "Warnings")) 4 false (b_warnings b))).
  split; [rewrite written_app, WD; unfold body; rewrite !written_app; reflexivity|]. split; [reflexivity|]. split.
  { unfold ran_clear. rewrite filter_app, app_length. fold (ran_clear d). rewrite RD.
    assert (forall h n f l, filter (fun d => match d with RanClear => true | _ => false end) (print_box h n f l) = []) as F.
    { intros h n f l. unfold print_box. destruct l; [reflexivity|]. destruct h, f; reflexivity. }
    unfold body. rewrite !filter_app, !F. cbn [app List.length]. lia. }
  split; [exact (since_box o us Status)|]. split; [exact (since_box o us ScreenReport)|]. split; [exact (since_box o us Results)|]. split; [exact (since_box o us Warnings)|].
  split; [exact (print_box_part None 999 true _ ltac:(lia))|]. split; [exact (print_box_part None 999 true _ ltac:(lia))|].
  split; [exact (print_box_part (Some (str "Results")) 6 true _ ltac:(lia))|exact (print_box_part (Some (str "Warnings")) 4 false _ ltac:(lia))].
Qed.
Print Assumptions C83_screen.

(** The messages since a channel was last cleared are uniquely determined, so the screen is. *)
Theorem C83_since c us : exists l, since c us l /\ forall l', since c us l' -> l' = l.
Proof. exists (get_box c (k_boxes (perform_all (mkOutside true None) us new_clearer))). split; [apply since_box|]. intros l' H. eapply since_fun; [exact H|apply since_box]. Qed.
Print Assumptions C83_since.

(** FINDING: the screen is not shown, and TypeError is raised, just if the environment has LINES
    (whatever its value), standard output is a terminal, and the command "clear" has failed. Nothing
    else raises an exception. *)
Theorem C83_finding_lines o us w :
  (forall e, snd (perform o (URefresh w) (perform_all o us new_clearer)) = Some e -> e = TypeError) /\
  (snd (perform o (URefresh w) (perform_all o us new_clearer)) <> None <->
   o_tty o = true /\ o_lines o <> None /\ forallb (fun w => w) (refreshes us ++ [w]) = false) /\
  (snd (perform o (URefresh w) (perform_all o us new_clearer)) <> None ->
   written (snd (fst (perform o (URefresh w) (perform_all o us new_clearer)))) = []).
Proof.
  cbn [perform]. rewrite method_spec, forallb_app. cbn [forallb]. unfold clear_screen.
  destruct (refreshes us) as [|x r]; [|cbn [forallb]; destruct (x && forallb (fun w => w) r)]; destruct (o_tty o), w, (o_lines o); cbn [fst snd];
  (split; [intros e; congruence|split; [split; [intros H; repeat split; first [congruence|discriminate|reflexivity]|intros (A & B & C); cbn in C; congruence]|intros H; try congruence; reflexivity]]).
Qed.
Print Assumptions C83_finding_lines.

(** A warning appears at once, on a line of its own; other messages, and clearing a channel, write
    nothing; neither runs anything nor raises an exception. *)
Theorem C83_say o c s k :
  snd (fst (perform o (USay c s) k)) = (match c with Warnings => [Wrote (s ++ [char_lf])] | _ => [] end) /\
  snd (fst (perform o (UClear c) k)) = [] /\
  snd (perform o (USay c s) k) = None /\ snd (perform o (UClear c) k) = None.
Proof. repeat split. Qed.
Print Assumptions C83_say.

(** A stream on a channel: what was written to it is one message, less a newline at its end. *)
Theorem C83_stream o c (ws : list bytes) k : exists s,
  stream_close o c (fold_left (fun t w => stream_write w t) ws []) k = perform o (USay c s) k /\
  (List.concat ws = s ++ [char_lf] \/ List.concat ws = s /\ forall r, s <> r ++ [char_lf]).
Proof.
  assert (forall ws t, fold_left (fun t w => stream_write w t) ws t = t ++ List.concat ws) as F.
  { clear. induction ws as [|w ws IH]; intros t; [cbn; rewrite app_nil_r; reflexivity|]. cbn [fold_left List.concat]. rewrite IH. unfold stream_write. rewrite <- app_assoc. reflexivity. }
  rewrite F. cbn [app]. exists (strip_newline (List.concat ws)). split; [reflexivity|].
  set (t := List.concat ws). unfold strip_newline. destruct (rev t) as [|c' r] eqn:R.
  - right. split; [reflexivity|]. intros q E. rewrite E, rev_app_distr in R. discriminate.
  - assert (t = rev r ++ [c']) as T by (rewrite <- (rev_involutive t), R; reflexivity).
    destruct (ceqb_spec c' char_lf) as [->|N]; [left; exact T|right; split; [reflexivity|]].
    intros q E. rewrite T in E. apply app_inj_tail in E. destruct E. congruence.
Qed.
Print Assumptions C83_stream.

(** The quiet display writes the warnings, each on a line of its own, and nothing else. *)
Theorem C83_quiet us : List.concat (map quiet_perform us) =
  List.concat (map (fun s => s ++ [char_lf]) (flat_map (fun u => match u with USay Warnings s => [s] | _ => [] end) us)).
Proof.
  induction us as [|[c|c s|w] us IH]; [reflexivity|exact IH| |exact IH]. destruct c; try exact IH.
  cbn [map List.concat flat_map quiet_perform app]. rewrite IH. reflexivity.
Qed.
Print Assumptions C83_quiet.

(** The screens of C71 are these, after the separator. *)
Theorem C83_same_screens o us w k ds : perform o (URefresh w) (perform_all o us new_clearer) = (k, ds, None) ->
  exists separator text, written ds = separator ++ text /\
    p_refresh (Some (k_boxes (perform_all o us new_clearer))) = [Screen text] /\ k_boxes k = k_boxes (perform_all o us new_clearer).
Proof.
  intros H. cbn [perform] in H. destruct (clear_screen o w (k_method (perform_all o us new_clearer))) as [[m d] [e|]]; [discriminate|].
  apply pair_equal_spec in H; destruct H as [H _]; apply pair_equal_spec in H; destruct H as [<- <-].
  exists (written d). eexists. split; [apply written_app|]. split; [|reflexivity]. unfold p_refresh. do 2 f_equal.
  rewrite !written_app.
  assert (forall h n f l, written (print_box h n f l) = show_box h n f l) as S.
  { intros h n f l. unfold print_box, show_box. destruct l as [|x l]; [reflexivity|]. rewrite !written_app.
    destruct h, f; unfold written, print; cbn [map List.concat app]; rewrite ?app_nil_r, <- ?app_assoc; reflexivity. }
  rewrite !S. reflexivity.
Qed.
Print Assumptions C83_same_screens.

(** ** Examples *)
Definition sx_uses : list use :=
  [USay Status (str "old"); UClear Status; USay Status (str "new"); USay Warnings (str "w1"); USay Results (str "r1"); URefresh true;
   USay Results (str "r2"); USay Results (str "r3"); USay Results (str "r4"); USay Results (str "r5"); USay Results (str "r6"); USay Results (str "r7")].
Example C83_example_screen :
  (let '(_, ds, e) := perform (mkOutside false (Some (str "24"))) (URefresh false) (perform_all (mkOutside false (Some (str "24"))) sx_uses new_clearer) in (written ds, e)) =
  (List.concat (map (fun s => s ++ [char_lf])
     (repeat "-"%char 78 :: map str ["new"; ""; "= Results = "; "r2"; "r3"; "r4"; "r5"; "r6"; "r7"; ""; "= Warnings = "; "w1"]%string)), None).
Proof. vm_compute. reflexivity. Qed.
Example C83_example_lines :
  let o := mkOutside true (Some (str "24")) in
  snd (perform o (URefresh true) (perform_all o sx_uses new_clearer)) = None /\
  snd (perform o (URefresh false) (perform_all o sx_uses new_clearer)) = Some TypeError.
Proof. split; vm_compute; reflexivity. Qed.
