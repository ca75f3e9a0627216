(** Specification vocabulary for texts from engines, engine descriptions and player checks. *)
From Verif Require Import Base Bytes PyStr Dict SgfPropsModel SgfPropsSpec GtpModel ControllerModel ControllerSpec EngineModel.

(** ** Repairing text *)

Definition question : ascii := "?"%char.

(** [repaired s t]: [t] is [s] with every character kept, except that each U+FFFD, and each run of
    at most four bytes that doesn't start with a character, is a question mark. *)
Inductive repaired : bytes -> bytes -> Prop :=
| rp_end : repaired [] []
| rp_char z c s t : utf8_of z c -> z <> 65533 -> repaired s t -> repaired (c ++ s) (c ++ t)
| rp_mark c s t : utf8_of 65533 c -> repaired s t -> repaired (c ++ s) (question :: t)
| rp_bad b bad s t : (List.length bad <= 3)%nat -> (forall z c r, utf8_of z c -> (b :: bad) ++ s <> c ++ r) -> repaired s t ->
    repaired ((b :: bad) ++ s) (question :: t).

(** ** Versions *)

(** The same text, up to the case of ASCII letters. *)
Definition same_letters (a b : bytes) : Prop := map lower_char a = map lower_char b.

Definition blanks (s : bytes) : Prop := Forall (fun c => is_space c = true) s.
Definition no_blank_first (s : bytes) : Prop := forall c r, s = c :: r -> is_space c = false.

(** The version, without the engine's name and the white space after it if it starts with it. *)
Inductive nameless (name : option bytes) (version : bytes) : bytes -> Prop :=
| nl_name n p w v : name = Some n -> version = p ++ w ++ v -> same_letters p n -> blanks w -> no_blank_first v ->
    nameless name version v
| nl_other : (forall n p r, name = Some n -> same_letters p n -> version <> p ++ r) -> nameless name version version.

(** [upto m v a]: [a] is what is before the first [m] in [v]. *)
Definition upto (m v a : bytes) : Prop :=
  (exists r, v = a ++ m ++ r) /\ forall a' r', v = a' ++ m ++ r' -> (List.length a <= List.length a')%nat.
Definition absent (m v : bytes) : Prop := forall a r, v <> a ++ m ++ r.

Definition mogo : bytes := str ". Please read http:".
Definition pachi : bytes := str ": I'm playing".

(** What is left of a version when a long one is cut. *)
Inductive cut : bytes -> bytes -> Prop :=
| cut_short v : (List.length v <= 64)%nat -> cut v v
| cut_mogo v a : (64 < List.length v)%nat -> upto mogo v a -> cut v a
| cut_pachi v a : (64 < List.length v)%nat -> absent mogo v -> upto pachi v a -> cut v a
| cut_word v w a r : (64 < List.length v)%nat -> absent mogo v -> absent pachi v ->
    v = w ++ a ++ r -> blanks w -> a <> [] -> Forall (fun c => is_space c = false) a ->
    (forall c r', r = c :: r' -> is_space c = true) -> cut v a.

(** The clean version. *)
Definition clean_version (name : option bytes) (version clean : bytes) : Prop :=
  exists v, nameless name version v /\ cut v clean.

(** ** Dialogues *)

(** Calls made one after another until one of them gives a result at which the dialogue stops; the
    results are [rs]. *)
Inductive until {X} (ch : channel X) (stop : cres answer -> Prop) (c : controller X)
  : list call -> controller X -> list (cres answer) -> Prop :=
| un_done : until ch stop c [] c []
| un_stop o os c' r : perform ch o c = (c', r) -> stop r -> until ch stop c (o :: os) c' [r]
| un_go o os c1 r c' rs : perform ch o c = (c1, r) -> ~ stop r -> until ch stop c1 os c' rs ->
    until ch stop c (o :: os) c' (r :: rs).

(** What describing an engine asks. *)
Definition describing : list call :=
  [Do (str "name") []; Do (str "version") []; Known (str "gomill-describe_engine");
   Do (str "gomill-describe_engine") []].

(** The text of a success response; none for a failure response. *)
Definition said (r : cres answer) : option bytes := match r with CRet (VText t) => Some t | _ => None end.

(** Errors that are not failure responses. *)
Definition broken (r : cres answer) : Prop := match r with CChan _ _ | CExn _ => True | _ => False end.
Definition wrong (r : cres answer) : Prop := match r with CRet _ => False | _ => True end.
(** Describing an engine stops at an error, or when the engine has no description to give. *)
Definition enough (r : cres answer) : Prop := broken r \/ r = CRet (VBool false).

(** What comes of the description's dialogue: [made n v d] is what is made of the responses. *)
Inductive interview {A} (made : option bytes -> option bytes -> option bytes -> cres A) : list (cres answer) -> cres A -> Prop :=
| iv_channel rs k m : interview made (rs ++ [CChan k m]) (CChan k m)
| iv_error rs e : interview made (rs ++ [CExn e]) (CExn e)
| iv_plain n v : ~ broken n -> ~ broken v -> interview made [n; v; CRet (VBool false)] (made (said n) (said v) None)
| iv_full n v d : ~ broken n -> ~ broken v -> ~ broken d ->
    interview made [n; v; CRet (VBool true); d] (made (said n) (said v) (said d)).

(** What a dialogue that should raise at the first thing wrong gives. *)
Inductive verdict {A} : list (cres answer) -> cres A -> Prop :=
| vd_fine rs a : Forall (fun r => ~ wrong r) rs -> verdict rs (CRet a)
| vd_bad rs m g : Forall (fun r => ~ wrong r) rs -> verdict (rs ++ [CBad m g]) (CBad m g)
| vd_chan rs k m : Forall (fun r => ~ wrong r) rs -> verdict (rs ++ [CChan k m]) (CChan k m)
| vd_exn rs e : Forall (fun r => ~ wrong r) rs -> verdict (rs ++ [CExn e]) (CExn e).

(** What checking a player does; it stops when something is wrong. *)
Definition checking (aliases : dict bytes) (commands : list (bytes * list bytes)) (size_text komi_text : bytes) : list call :=
  [Set_aliases aliases; Check_version] ++ map (fun x => Do (fst x) (snd x)) commands ++
  [Do (str "boardsize") [size_text]; Do (str "clear_board") []; Do (str "komi") [komi_text]; Safe_close].

(** The commands sent over a channel. *)
Fixpoint sent (evs : list cevent) : list (bytes * list bytes) :=
  match evs with
  | [] => []
  | EvSend c a _ :: rest => (c, a) :: sent rest
  | _ :: rest => sent rest
  end.

(** The commands of a check. *)
Definition check_commands (commands : list (bytes * list bytes)) (size_text komi_text : bytes) : list (bytes * list bytes) :=
  (str "protocol_version", []) :: commands ++
  [(str "boardsize", [size_text]); (str "clear_board", []); (str "komi", [komi_text]); (str "quit", [])].

(** A command as it is sent. *)
Definition aliased (aliases : dict bytes) (x : bytes * list bytes) : bytes * list bytes := (meaning aliases (fst x), snd x).

Definition prefix_of {A} (a b : list A) : Prop := exists r, b = a ++ r.

(** ** Descriptions *)

(** A response counts if it is not empty. *)
Definition given_text (r : option bytes) : option bytes := match r with Some [] => None | _ => r end.

(** A version that is over 64 characters long, and nothing but white space. *)
Definition unreadable (name : option bytes) (version : bytes) : Prop :=
  (64 < List.length version)%nat /\ blanks version /\ nameless name version version.
