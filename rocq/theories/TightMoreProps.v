(** More theorems on details of the code that earlier theorems left open (see TightProps.v). *)
From Coq Require Import List Bool ZArith QArith.
Import ListNotations.
From Verif Require Import Base Bytes Dict SettingsModel ControlModel.
Local Open Scope Z_scope.

Lemma setting_good s config v x : dget (st_name s) config = Some v -> (forall cls made, v <> VProxy cls made) ->
  st_interpreter s v = Good x -> setting_value s config = Good x.
Proof.
  intros G N I. unfold setting_value. rewrite G. assert (setting_interpret s v = Good x) as E by (unfold setting_interpret; rewrite I; reflexivity).
  destruct v; try exact E. exfalso. eapply N. reflexivity.
Qed.

(** ** C55: the arguments of Parameter() *)
(** In the control file of a Monte Carlo tuner: Parameter(code, scale=..., split=..., format=...); [code] can
    be given by name, and without a format it is the code, a colon and %s. *)
Theorem C55_mcts_parameter_arguments :
  forall V (apply : nat -> pyfloat -> option V) formats code scale split format c n k f v,
  interpret_identifier code = Good (VStr c) -> interpret_callable scale = Good (VFun n) ->
  interpret_positive_int split = Good (VInt k) -> apply n (FNum (1 / inject_Z (k * 2))%Q) = Some v ->
  (interpret_8bit_string format = Good (VStr f) -> formats f v = true ->
   mcts_parameter_from_control apply formats [code] [(str "scale", scale); (str "split", split); (str "format", format)] = Good (mkMP c n k f) /\
   mcts_parameter_from_control apply formats [] [(str "format", format); (str "code", code); (str "split", split); (str "scale", scale)] = Good (mkMP c n k f)) /\
  (formats (c ++ str ":%s") v = true ->
   mcts_parameter_from_control apply formats [code] [(str "scale", scale); (str "split", split)] = Good (mkMP c n k (c ++ str ":%s"))).
Proof.
  intros V apply formats code scale split format c n k f v Hc Hs Hk Ha.
  assert (forall cls made, code <> VProxy cls made) as Nc by (intros cls made ->; discriminate Hc).
  assert (forall cls made, scale <> VProxy cls made) as Ns by (intros cls made ->; discriminate Hs).
  assert (forall cls made, split <> VProxy cls made) as Nk by (intros cls made ->; discriminate Hk).
  assert (forall d, dget (str "code") d = Some code -> dget (str "scale") d = Some scale -> dget (str "split") d = Some split ->
    forall x, match setting_value (mkSetting (str "format") interpret_8bit_string (Some VNone)) d with Bad SKey => Good VNone | r => r end = Good x ->
    load_settings mcts_parameter_settings d true false = Good [(str "code", VStr c); (str "scale", VFun n); (str "split", VInt k); (str "format", x)]) as L.
  { intros d D1 D2 D3 x D4. unfold mcts_parameter_settings.
    assert (setting_value (mkSetting (str "code") interpret_identifier None) d = Good (VStr c)) as E1 by (apply setting_good with (v := code); assumption).
    assert (setting_value (mkSetting (str "scale") interpret_callable None) d = Good (VFun n)) as E2 by (apply setting_good with (v := scale); assumption).
    assert (setting_value (mkSetting (str "split") interpret_positive_int None) d = Good (VInt k)) as E3 by (apply setting_good with (v := split); assumption).
    unfold load_settings. rewrite E1, E2, E3. unfold get_default. cbn [st_default st_name]. rewrite D4. reflexivity. }
  assert (forall args kwargs d x f0, resolve_arguments mcts_parameter_class args kwargs = Good d ->
    dget (str "code") d = Some code -> dget (str "scale") d = Some scale -> dget (str "split") d = Some split ->
    match setting_value (mkSetting (str "format") interpret_8bit_string (Some VNone)) d with Bad SKey => Good VNone | r => r end = Good x ->
    match x with VStr t => t = f0 | VNone => c ++ str ":%s" = f0 | _ => False end -> formats f0 v = true ->
    mcts_parameter_from_control apply formats args kwargs = Good (mkMP c n k f0)) as M.
  { intros args kwargs d x f0 R D1 D2 D3 D4 X F. unfold mcts_parameter_from_control. rewrite R. unfold sbind at 1. rewrite (L d D1 D2 D3 x D4). unfold sbind at 1.
    assert (forall y, get "code" [(str "code", VStr c); (str "scale", VFun n); (str "split", VInt k); (str "format", y)] = Good (VStr c)) as G1 by (intros y; vm_compute; reflexivity).
    assert (forall y, get "scale" [(str "code", VStr c); (str "scale", VFun n); (str "split", VInt k); (str "format", y)] = Good (VFun n)) as G2 by (intros y; vm_compute; reflexivity).
    assert (forall y, get "split" [(str "code", VStr c); (str "scale", VFun n); (str "split", VInt k); (str "format", y)] = Good (VInt k)) as G3 by (intros y; vm_compute; reflexivity).
    assert (forall y, get "format" [(str "code", VStr c); (str "scale", VFun n); (str "split", VInt k); (str "format", y)] = Good y) as G4 by (intros y; vm_compute; reflexivity).
    rewrite G1, G2, G3, G4. clear L G1 G2 G3 G4.
    destruct x; try contradiction; cbv [as_option as_text as_int as_fun key_text int_of default_format sbind]; subst f0; rewrite Ha, F; reflexivity. }
  split; [intros Hf HF; split|intros HF].
  - assert (forall cls made, format <> VProxy cls made) as Nf by (intros cls made ->; discriminate Hf).
    eapply (M _ _ _ (VStr f)); [vm_compute; reflexivity|vm_compute; reflexivity|vm_compute; reflexivity|vm_compute; reflexivity| |reflexivity|exact HF].
    rewrite (setting_good _ _ format (VStr f)); [reflexivity|vm_compute; reflexivity|exact Nf|exact Hf].
  - assert (forall cls made, format <> VProxy cls made) as Nf by (intros cls made ->; discriminate Hf).
    eapply (M _ _ _ (VStr f)); [vm_compute; reflexivity|vm_compute; reflexivity|vm_compute; reflexivity|vm_compute; reflexivity| |reflexivity|exact HF].
    rewrite (setting_good _ _ format (VStr f)); [reflexivity|vm_compute; reflexivity|exact Nf|exact Hf].
  - eapply (M _ _ _ VNone); [vm_compute; reflexivity|vm_compute; reflexivity|vm_compute; reflexivity|vm_compute; reflexivity|vm_compute; reflexivity|reflexivity|exact HF].
Qed.
Print Assumptions C55_mcts_parameter_arguments.

(** The hypotheses hold, for instance, here: a function that gives back its argument, a format that
    suits every value. *)
Example mcts_parameter_arguments_met :
  let apply (n : nat) (x : pyfloat) := Some x in
  let formats (f : bytes) (v : pyfloat) := true in
  mcts_parameter_from_control apply formats [VStr (str "resign")] [(str "scale", VFun 3); (str "split", VInt 12)]
  = Good (mkMP (str "resign") 3%nat 12 (str "resign:%s")) /\
  interpret_identifier (VStr (str "resign")) = Good (VStr (str "resign")) /\
  interpret_callable (VFun 3) = Good (VFun 3%nat) /\ interpret_positive_int (VInt 12) = Good (VInt 12).
Proof. vm_compute. repeat split. Qed.
