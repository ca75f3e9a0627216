(** What GTP arguments mean (GTP draft 2, section 2.11), independently of gtp_engine.py. *)
From Verif Require Import Base Bytes PyStr.
From Coq Require Import QArith Qabs.
Open Scope Z_scope.

Definition spaces (s : bytes) : Prop := Forall (fun c => is_space c = true) s.
Definition digits (s : bytes) : Prop := Forall (fun c => is_digit c = true) s.

(** A sign, and what it multiplies by. *)
Inductive sign : bytes -> Z -> Prop :=
| sign_none : sign [] 1
| sign_plus : sign (str "+") 1
| sign_minus : sign (str "-") (-1).

(** An integer with white space around it; Python 2 also allows white space after a sign. *)
Inductive int_literal : bytes -> Z -> Prop :=
| int_literal_intro pre sg k mid ds post :
    spaces pre -> spaces post -> sign sg k -> spaces mid -> (sg = [] -> mid = []) ->
    ds <> [] -> digits ds ->
    int_literal (pre ++ sg ++ mid ++ ds ++ post) (k * digits_val ds).

(** The exponent of a float. *)
Inductive exponent : bytes -> Z -> Prop :=
| exponent_none : exponent [] 0
| exponent_some c sg k ds :
    c = "e"%char \/ c = "E"%char -> sign sg k -> ds <> [] -> digits ds ->
    exponent (c :: sg ++ ds) (k * digits_val ds).

(** The fraction of a float: a point and digits. *)
Inductive fraction : bytes -> bytes -> Prop :=
| fraction_none : fraction [] []
| fraction_some ds : digits ds -> fraction ("."%char :: ds) ds.

(** A decimal floating-point number and its value. *)
Inductive float_literal : bytes -> Q -> Prop :=
| float_literal_intro pre sg k ip fr fp ex x post :
    spaces pre -> spaces post -> sign sg k -> digits ip -> fraction fr fp -> exponent ex x ->
    ip ++ fp <> [] ->
    float_literal (pre ++ sg ++ ip ++ fr ++ ex ++ post)
      (inject_Z (k * digits_val (ip ++ fp)) * Qpower (10 # 1) (x - Z.of_nat (List.length fp)))%Q.

(** Numbers with a larger absolute value are infinite in binary64. *)
Definition float_max : Q := inject_Z (2 ^ 1024 - 2 ^ 970).
