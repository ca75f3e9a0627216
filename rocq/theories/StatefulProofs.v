(** Proofs about the stateful player (C86). *)
From Verif Require Import Base Bytes PyStr Dict BoardModel BoardSpec BoardProofs CommonModel CommonProofs GtpModel GtpStateModel GtpStateSpec
  GtpStateProofs GtpStateMainProofs GtpStateFinalProofs GtpStateProps SaveModel StatefulModel StatefulSpec.
Open Scope Z_scope.

Definition answer (r : gres (option bytes)) : bool * bytes * bool :=
  match r with
  | GQuit m => (false, clean_response m, true)
  | GFatal m => (true, clean_response (or_default m (str "unspecified fatal error")), true)
  | GError m => (true, clean_response (or_default m (str "unspecified error")), false)
  | GRaise m => (true, clean_response (or_default (str "internal error" ++ char_lf :: m) (str "unspecified error")), false)
  | GOk None => (false, [], false)
  | GOk (Some t) => (false, clean_response t, false)
  end.

Section Player.
Variable ar : around.
Notation E := (stateful_engine ar).

Lemma not_fatal : e_fatal E = false. Proof. reflexivity. Qed.
Lemma obey_get s name args h : dget name (e_handlers E) = Some h ->
  obey ar s name args = (let (s', r) := call_handler E h s args in (s', answer r)).
Proof.
  intros H. unfold obey, run_command, do_command. rewrite H. destruct (call_handler E h s args) as [s' r]. rewrite not_fatal.
  destruct r as [[t|]|m|m|m|m]; reflexivity.
Qed.
Lemma obey_unknown s name args : dget name (e_handlers E) = None -> obey ar s name args = (s, fails (str "unknown command")).
Proof. intros H. unfold obey, run_command, do_command. rewrite H. reflexivity. Qed.

Lemma get_state c : In c state_commands -> dget (command_name c) (e_handlers E) = Some (state_handler ar c).
Proof. intros I. destruct c; try reflexivity; repeat (destruct I as [I|I]; [discriminate I|]); destruct I. Qed.
Lemma obey_state s c args : In c state_commands ->
  obey ar s (command_name c) args =
  (let (g, r) := handle (env_of ar (p_resign s)) c (p_game s) args in (mkProgram g (p_resign s), answer r)).
Proof.
  intros I. rewrite (obey_get _ _ _ _ (get_state c I)). unfold state_handler. cbn [call_handler].
  destruct (handle (env_of ar (p_resign s)) c (p_game s) args) as [g r]. reflexivity.
Qed.

(** Other commands don't change the game. *)
Lemma obey_other s name args : ~ In name state_names ->
  p_game (fst (obey ar s name args)) = p_game s /\
  (name <> str "gomill-resign_p" -> p_resign (fst (obey ar s name args)) = p_resign s).
Proof.
  intros N.
  assert (K : forall h : handler program, (h = savesgf_handler ar \/ (exists t, h = constant_handler t) \/ h = Known_command \/ h = List_commands \/ h = Protocol_version \/ h = Quit) ->
    dget name (e_handlers E) = Some h -> fst (obey ar s name args) = mkProgram (p_game s) (p_resign s)).
  { intros h D G. rewrite (obey_get _ _ _ _ G). destruct D as [->|[[t ->]|[->|[->|[->| ->]]]]]; try (destruct s; reflexivity).
    cbn [call_handler savesgf_handler]. unfold handle_savesgf. destruct args as [|a l]; [reflexivity|].
    destruct (saved_text (ar_version ar) (ar_today ar) (p_game s) l); try reflexivity. destruct (ar_save ar a); reflexivity. }
  destruct (list_eq_dec ascii_dec name (str "gomill-resign_p")) as [->|NR].
  - split; [|congruence]. rewrite (obey_get _ _ _ (User handle_resign_p)) by reflexivity. cbn [call_handler]. unfold handle_resign_p.
    destruct args as [|a l]; [reflexivity|]. destruct (interpret_float a); reflexivity.
  - destruct (dget name (e_handlers E)) as [h|] eqn:G; [|rewrite (obey_unknown _ _ _ G); split; reflexivity].
    assert (D : h = savesgf_handler ar \/ (exists t, h = constant_handler t) \/ h = Known_command \/ h = List_commands \/ h = Protocol_version \/ h = Quit).
    { apply dget_In in G.
      replace (e_handlers E) with
        ([(str "known_command", Known_command); (str "list_commands", List_commands); (str "protocol_version", Protocol_version); (str "quit", Quit)] ++ all_handlers ar) in G by reflexivity.
      unfold all_handlers in G. apply in_app_or in G. destruct G as [G|G].
      - destruct G as [G|[G|[G|[G|[]]]]]; apply pair_equal_spec in G; destruct G as [_ <-]; auto 10.
      - apply in_app_or in G. destruct G as [G|G].
        + apply in_map_iff in G. destruct G as (c & Q & Ic). apply pair_equal_spec in Q. destruct Q as [<- _]. elim N. apply in_map. exact Ic.
        + destruct G as [G|[G|[G|[G|[]]]]]; apply pair_equal_spec in G; destruct G as [G1 <-]; [auto| | |congruence]; right; left; eexists; reflexivity. }
    rewrite (K h D eq_refl). split; reflexivity.
Qed.

Lemma find_empties_ok b : wf b -> forall pts, Forall (on_board (side b)) pts ->
  find_empties b pts = Ok (filter (fun q => match view b q with None => true | Some _ => false end) pts).
Proof.
  intros W. induction pts as [|[r c] pts IH]; intros F; [reflexivity|]. inversion F as [|? ? F1 F2]; subst. cbn [find_empties filter].
  unfold view at 1. cbn [fst snd]. rewrite (get_spec b r c W). destruct (on_boardb_spec (side b) (r, c)) as [_|Q]; [|contradiction].
  cbn [bind]. rewrite (IH F2). cbn [bind]. destruct (cell_at (grid b) (r, c)); reflexivity.
Qed.
End Player.
