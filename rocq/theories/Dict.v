(** Python dicts with byte-string keys, as association lists in insertion order.
    ([iteritems()] order is unspecified in Python 2; where the code's result could
    depend on it, this is discussed at the point of use.) *)
From Verif Require Import Base Bytes.

Definition dict (A : Type) := list (bytes * A).

Fixpoint dget {A} (k : bytes) (d : dict A) : option A :=
  match d with
  | [] => None
  | (k', v) :: rest => if bytes_eqb k k' then Some v else dget k rest
  end.

Fixpoint dset {A} (k : bytes) (v : A) (d : dict A) : dict A :=
  match d with
  | [] => [(k, v)]
  | (k', v') :: rest => if bytes_eqb k k' then (k', v) :: rest else (k', v') :: dset k v rest
  end.

Definition dmem {A} (k : bytes) (d : dict A) : bool :=
  match dget k d with Some _ => true | None => false end.

Definition dkeys {A} (d : dict A) : list bytes := map fst d.

(** Removing a key. *)
Fixpoint ddel {A} (k : bytes) (d : dict A) : dict A :=
  match d with
  | [] => []
  | (k', v) :: rest => if bytes_eqb k k' then ddel k rest else (k', v) :: ddel k rest
  end.

Lemma dget_dset_same {A} k (v : A) d : dget k (dset k v d) = Some v.
Proof.
  induction d as [|[k' v'] d IH]; simpl; [rewrite bytes_eqb_refl; reflexivity|].
  destruct (bytes_eqb_spec k k') as [->|N]; simpl.
  - rewrite bytes_eqb_refl. reflexivity.
  - destruct (bytes_eqb_spec k k'); [congruence|]. exact IH.
Qed.

Lemma dget_dset_other {A} k k2 (v : A) d : k2 <> k -> dget k2 (dset k v d) = dget k2 d.
Proof.
  intros N. induction d as [|[k' v'] d IH]; simpl.
  - destruct (bytes_eqb_spec k2 k); congruence.
  - destruct (bytes_eqb_spec k k') as [->|N2]; simpl.
    + destruct (bytes_eqb_spec k2 k'); [congruence|]. reflexivity.
    + rewrite IH. reflexivity.
Qed.

Lemma dget_dset {A} k k2 (v : A) d :
  dget k2 (dset k v d) = if bytes_eqb k2 k then Some v else dget k2 d.
Proof.
  destruct (bytes_eqb_spec k2 k) as [->|N]; [apply dget_dset_same|apply dget_dset_other; auto].
Qed.

Lemma dget_ddel {A} k k2 (d : dict A) :
  dget k2 (ddel k d) = if bytes_eqb k2 k then None else dget k2 d.
Proof.
  induction d as [|[k' v'] d IH]; simpl.
  - destruct (bytes_eqb k2 k); reflexivity.
  - destruct (bytes_eqb_spec k k') as [->|N]; simpl.
    + rewrite IH. destruct (bytes_eqb_spec k2 k'); reflexivity.
    + rewrite IH. destruct (bytes_eqb_spec k2 k') as [->|]; auto.
      destruct (bytes_eqb_spec k' k); congruence.
Qed.

Lemma dget_In {A} k (v : A) d : dget k d = Some v -> In (k, v) d.
Proof.
  induction d as [|[k' v'] d IH]; simpl; [discriminate|].
  destruct (bytes_eqb_spec k k') as [->|N]; [intros E; inversion E; auto|auto].
Qed.

Lemma In_dget {A} k (v : A) d : NoDup (map fst d) -> In (k, v) d -> dget k d = Some v.
Proof.
  induction d as [|[k' v'] d IH]; simpl; intros ND; [tauto|]. inversion ND; subst.
  intros [E|H].
  - inversion E; subst. rewrite bytes_eqb_refl. reflexivity.
  - destruct (bytes_eqb_spec k k') as [->|N]; auto.
    exfalso. apply H1. apply in_map_iff. exists (k', v). auto.
Qed.

Lemma dget_None {A} k (d : dict A) : dget k d = None <-> ~ In k (map fst d).
Proof.
  induction d as [|[k' v'] d IH]; simpl; [tauto|].
  destruct (bytes_eqb_spec k k') as [->|N].
  - split; [discriminate|intros H; exfalso; apply H; auto].
  - rewrite IH. intuition congruence.
Qed.

Lemma dset_keys {A} k (v : A) d x : In x (map fst (dset k v d)) <-> x = k \/ In x (map fst d).
Proof.
  induction d as [|[k' v'] d IH]; simpl; [intuition congruence|].
  destruct (bytes_eqb_spec k k') as [->|N]; simpl; [intuition congruence|]. rewrite IH. intuition congruence.
Qed.

Lemma dset_NoDup {A} k (v : A) d : NoDup (map fst d) -> NoDup (map fst (dset k v d)).
Proof.
  induction d as [|[k' v'] d IH]; simpl; intros ND; [constructor; auto; constructor|].
  inversion ND; subst. destruct (bytes_eqb_spec k k') as [->|N]; simpl; constructor; auto.
  rewrite dset_keys. intuition congruence.
Qed.

Lemma dset_new {A} k (v : A) d : ~ In k (map fst d) -> dset k v d = d ++ [(k, v)].
Proof.
  induction d as [|[k' v'] d IH]; simpl; intros H; auto.
  destruct (bytes_eqb_spec k k') as [->|N]; [tauto|]. rewrite IH by tauto. reflexivity.
Qed.
