(** Property theorems for gomill/sgf_properties.py (C16 - C18, C46). *)
From Verif Require Import Base Bytes BoardSpec SgfGrammarModel SgfGrammarSpec CommonModel SgfPropsModel
  SgfPropsSpec SgfPropsProofs SgfValueSpec SgfValueProofs SgfTypeErrorProofs SgfGrammarProofs.

(** C16. *)

(** What a raw value means: a point of the board, a pass, or ValueError. *)
Theorem C16_interpret_exact :
  forall s size,
    match interpret_go_point s size with
    | Ok None => names_pass size s
    | Ok (Some p) => names_point size s p
    | Err e => e = ValueError /\ ~ names_pass size s /\ forall p, ~ names_point size s p
    end.
Proof. exact interpret_go_point_spec. Qed.
Print Assumptions C16_interpret_exact.

Theorem C16_round_trip :
  forall size m, 1 <= size <= 25 ->
    (forall p, m = Some p -> 0 <= fst p < size /\ 0 <= snd p < size) ->
    exists s, serialise_go_point m size = Ok s /\ interpret_go_point s size = Ok m.
Proof. exact C16_round_proof. Qed.
Print Assumptions C16_round_trip.

(** Size 26, which the documentation says is supported: the bottom row and the last
    column make [serialise_go_point] raise IndexError; all other moves round-trip. *)
Theorem C16_size_26 :
  forall m, (forall p, m = Some p -> 0 <= fst p < 26 /\ 0 <= snd p < 26) ->
    match m with
    | Some p => if (fst p =? 0) || (snd p =? 25) then serialise_go_point m 26 = Err IndexError
                else exists s, serialise_go_point m 26 = Ok s /\ interpret_go_point s 26 = Ok m
    | None => exists s, serialise_go_point m 26 = Ok s /\ interpret_go_point s 26 = Ok m
    end.
Proof. exact C16_26_proof. Qed.
Print Assumptions C16_size_26.

(** So the claim for sizes up to 26 is false. *)
Theorem C16_up_to_26_refuted :
  ~ forall size m, 1 <= size <= 26 ->
      (forall p, m = Some p -> 0 <= fst p < size /\ 0 <= snd p < size) ->
      exists s, serialise_go_point m size = Ok s /\ interpret_go_point s size = Ok m.
Proof.
  intros H. destruct (H 26 (Some (0, 25)) ltac:(lia)) as (s & E & _).
  - intros p E. injection E as <-. simpl. lia.
  - vm_compute in E. discriminate.
Qed.
Print Assumptions C16_up_to_26_refuted.

Theorem C16_refuses_the_rest :
  forall size m,
    (~ (1 <= size <= 26) \/ exists p, m = Some p /\ ~ (0 <= fst p < size /\ 0 <= snd p < size)) ->
    serialise_go_point m size = Err ValueError.
Proof. exact C16_refuse_proof. Qed.
Print Assumptions C16_refuses_the_rest.

Example C16_example :
  serialise_go_point (Some (15, 3)) 19 = Ok (str "dd") /\
  interpret_go_point (str "dd") 19 = Ok (Some (15, 3)) /\
  interpret_go_point (str "tt") 20 = Ok (Some (0, 19)) /\
  interpret_go_point (str "tt") 19 = Ok None /\
  interpret_go_point (str "d") 19 = Err ValueError.
Proof. repeat split. Qed.

(** C17. *)

Theorem C17_point_list_exact :
  forall values x,
    match interpret_point_list values x with
    | Ok l => NoDup l /\ (exists Ps, Forall2 (value_points (c_size x)) values Ps /\
                forall q, In q l <-> Exists (fun P => P q) Ps) /\
              (forall q, In q l -> on_board (c_size x) q)
    | Err e => e = ValueError /\ exists v, In v values /\ forall P, ~ value_points (c_size x) v P
    end.
Proof. exact C17_interpret_proof. Qed.
Print Assumptions C17_point_list_exact.

Theorem C17_point_list_round_trip :
  forall x l, 1 <= c_size x <= 25 -> Forall (on_board (c_size x)) l ->
    exists raw l', serialise_point_list l x = Ok raw /\
      interpret_point_list raw x = Ok l' /\ same_points l l' /\ NoDup l'.
Proof.
  intros x l Hs H. destruct (point_list_round x l Hs H) as (raw & l' & E & _ & _ & _ & _ & I & S & N).
  exists raw, l'. auto.
Qed.
Print Assumptions C17_point_list_round_trip.

Example C17_example :
  interpret_point_list [str "ab:bc"; str "aa"; str "bb"] (mkCtx 9 UTF_8)
  = Ok [(6, 0); (6, 1); (7, 0); (7, 1); (8, 0)] /\
  interpret_point_list [str "bc:ab"] (mkCtx 9 UTF_8) = Err ValueError /\
  serialise_point_list [(6, 1); (8, 0)] (mkCtx 9 UTF_8) = Ok [str "aa"; str "bc"].
Proof. repeat split; vm_compute; reflexivity. Qed.

(** C18. *)

(** Serialising a proper value gives well-formed raw values, which are read back as the
    same value (see [reads_back]). *)
Theorem C18_typed_round_trip :
  forall x t v, 1 <= c_size x <= 25 -> value_ok x t v ->
    exists raw, serialise_as_type t v x = Ok raw /\ raw <> [] /\ Forall good_value raw /\
      exists v', interpret_as_type t raw x = Ok v' /\ reads_back t v v'.
Proof. exact C18_proof. Qed.
Print Assumptions C18_typed_round_trip.

Theorem C18_text_is_utf8 :
  forall t raw x s, interpret_as_type t raw x = Ok (VText s) -> utf8_text 1114112 s.
Proof. exact C18_utf8_proof. Qed.
Print Assumptions C18_text_is_utf8.

(** [register_property] decides the type of that property and of no other. *)
Theorem C18_register_property :
  forall p k t,
    (forall raw, interpret (register_property k t p) k raw = interpret_as_type t raw (pr_context p)) /\
    (forall v, serialise (register_property k t p) k v = serialise_as_type t v (pr_context p)) /\
    forall k', k' <> k ->
      (forall raw, interpret (register_property k t p) k' raw = interpret p k' raw) /\
      (forall v, serialise (register_property k t p) k' v = serialise p k' v).
Proof. exact register_proof. Qed.
Print Assumptions C18_register_property.

Theorem C18_deregister_property :
  forall p k,
    match deregister_property k p with
    | Ok p' => (forall t, pr_default p = Some t -> forall raw, interpret p' k raw = interpret_as_type t raw (pr_context p)) /\
               (pr_default p = None -> forall raw, interpret p' k raw = Err ValueError) /\
               (forall k' raw, k' <> k -> interpret p' k' raw = interpret p k' raw)
    | Err e => e = KeyError /\
               forall t, pr_default p = Some t -> forall raw, interpret p k raw = interpret_as_type t raw (pr_context p)
    end.
Proof. exact deregister_proof. Qed.
Print Assumptions C18_deregister_property.

(** Non-trivial proper values, in a single-byte encoding: "cafe" with an accent. *)
Example C18_example :
  let x := mkCtx 19 ISO_8859_1 in
  let s := str "caf" ++ [chr 195; chr 169] in
  value_ok x PT_LB_list (VLabels [((3, 3), s)]) /\
  serialise_as_type PT_LB_list (VLabels [((3, 3), s)]) x = Ok [str "dp:caf" ++ [chr 233]] /\
  interpret_as_type PT_LB_list [str "dp:caf" ++ [chr 233]] x = Ok (VLabels [((3, 3), s)]) /\
  value_ok x PT_FG (VFigure (-257) s) /\
  value_ok x PT_point_elist (VPoints []) /\
  value_ok x PT_real (VReal (-75) 1) /\
  serialise_as_type PT_real (VReal (-75) 1) x = Ok [str "-7.5"] /\
  interpret_as_type PT_real [str " 65e-1 "] x = Ok (VReal 65 1) /\
  interpret (new_presenter 19 UTF_8) (str "AP") [str "a\:b:c"] = Ok (VPair (str "a:b") (str "c")).
Proof.
  assert (utf8_text 256 (str "caf" ++ [chr 195; chr 169])) as T.
  { exists [99; 97; 102; 233]. split; [|repeat constructor].
    apply (utf8_decode_sound 5); [simpl; lia|reflexivity]. }
  cbv zeta. split; [split; [discriminate|]; repeat constructor; auto; vm_compute; congruence|].
  split; [vm_compute; reflexivity|]. split; [vm_compute; reflexivity|].
  split; [exact T|]. split; [constructor|].
  split; [split; [reflexivity|right; discriminate]|].
  repeat split; vm_compute; reflexivity.
Qed.

(** C46. *)

(** Any error is a ValueError, except that AR, LN, LB and FG values without an unescaped
    colon raise TypeError. *)
Theorem C46_errors_classified :
  forall t raw x e, interpret_as_type t raw x = Err e ->
    e = ValueError \/
    (e = TypeError /\ (t = PT_ARLN_list \/ t = PT_LB_list \/ t = PT_FG) /\
     exists v, In v raw /\ forall a b, v = a ++ ":"%char :: b -> ~ no_bare_colon a).
Proof. exact C46_proof. Qed.
Print Assumptions C46_errors_classified.

(** The documented behaviour ("Raises ValueError if it cannot interpret the value") fails
    for well-formed SGF such as LB[dd], AR[dd] and FG[256]. *)
Theorem C46_only_value_error_refuted :
  forall k, In k [str "LB"; str "AR"; str "LN"; str "FG"] ->
    exists raw, Forall good_value raw /\ raw <> [] /\
      interpret (new_presenter 19 UTF_8) k raw = Err TypeError.
Proof.
  intros k I. simpl in I.
  destruct I as [<-|[<-|[<-|[<-|[]]]]]; [exists [str "dd"]|exists [str "dd"]|exists [str "dd"]|exists [str "256"]];
    (split; [constructor; [apply good_value_valid; vm_compute; reflexivity|constructor]|]);
    (split; [discriminate|vm_compute; reflexivity]).
Qed.
Print Assumptions C46_only_value_error_refuted.
