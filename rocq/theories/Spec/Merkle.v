(** Specification vocabulary for Merkle trees over a hash function on byte
    strings. *)
From Coq Require Import List ZArith.
Import ListNotations.

Definition bytes := list Z.

Section Spec.
Variable H : bytes -> bytes.

(** The hash of the perfect subtree of height [d] whose leaves are
    [leaf (q * 2^d) .. leaf (q * 2^d + 2^d - 1)]. *)
Fixpoint subtree (leaf : nat -> bytes) (d q : nat) : bytes :=
  match d with
  | O => H (leaf q)
  | S d' => H (subtree leaf d' (2 * q) ++ subtree leaf d' (2 * q + 1))
  end.

(** The messages hashed to compute [subtree leaf d q]. *)
Fixpoint subtree_msgs (leaf : nat -> bytes) (d q : nat) : list bytes :=
  match d with
  | O => [leaf q]
  | S d' => (subtree leaf d' (2 * q) ++ subtree leaf d' (2 * q + 1))
              :: subtree_msgs leaf d' (2 * q) ++ subtree_msgs leaf d' (2 * q + 1)
  end.

(** Hashing up from [cur] with the siblings [sibs] (lowest level first); bit i
    of [idx] says that the i-th running node is a right child. *)
Fixpoint climb (idx : nat) (cur : bytes) (sibs : list bytes) : bytes :=
  match sibs with
  | [] => cur
  | s :: r => climb (idx / 2) (H (if Nat.odd idx then s ++ cur else cur ++ s)) r
  end.
(** The messages hashed on the way. *)
Fixpoint climb_msgs (idx : nat) (cur : bytes) (sibs : list bytes) : list bytes :=
  match sibs with
  | [] => []
  | s :: r =>
    let m := if Nat.odd idx then s ++ cur else cur ++ s in
    m :: climb_msgs (idx / 2) (H m) r
  end.

(** A collision exhibited between two given sets of messages. *)
Definition collision (ms ms' : list bytes) : Prop :=
  exists x y, In x ms /\ In y ms' /\ x <> y /\ H x = H y.
End Spec.
