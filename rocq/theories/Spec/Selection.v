(** Meaning of the layers that compare and select elements. *)
From Coq Require Import ZArith List.
From Verif Require Import Spec.Numbers Spec.Shapes Spec.Tensors Spec.HonestProver Model.Builder.
Import ListNotations.
Local Open Scope Z_scope.

(** The field elements that stand for a tensor of integers. *)
Definition encoded (p : Z) (t : tensor Z) : tensor Z := {| dims := dims t; flat := map (enc p) (flat t) |}.
(** All elements are at most [B] in absolute value. *)
Definition bounded (B : Z) (t : tensor Z) : Prop := Forall (fun v => Z.abs v <= B) (flat t).
Definition boolean (t : tensor Z) : Prop := Forall (fun v => v = 0 \/ v = 1) (flat t).

(** Element-wise functions; two operands are broadcast to a common shape. *)
Definition pointwise (g : Z -> Z) (x out : tensor Z) : Prop :=
  dims out = dims x /\ forall c, in_range c (dims out) -> elem out c = option_map g (elem x c).
Definition pointwise2 (g : Z -> Z -> Z) (a b out : tensor Z) : Prop :=
  broadcasts_to (dims a) (dims b) (dims out) /\
  forall c, in_range c (dims out) -> exists u v,
    elem a (read_coords c (dims a)) = Some u /\ elem b (read_coords c (dims b)) = Some v /\ elem out c = Some (g u v).

(** Inverses in the field, 0 for 0: what the built-in division hint computes with. *)
Definition inverses (p : Z) (inv : Z -> Z) : Prop :=
  inv 0 = 0 /\ forall y, 0 < y < p -> 0 <= inv y < p /\ (y * inv y) mod p = 1.
(** The honest prover of [honest_with], with the built-in division hint. *)
Definition honest_div (p : Z) (inv : Z -> Z) (G : nat -> list Z -> nat -> option (list Z)) (h : hintk) (ins : list Z) (n : nat)
    : option (list Z) :=
  match h, ins with
  | HDiv, [x; y] => Some [(x * inv y) mod p]
  | _, _ => honest_with G h ins n
  end.

(** Whatever a prover does, an accepted proof has the output [v]; and the honest prover,
    with any registered hints, is accepted with that output. *)
Definition yields {A} (p : Z) (m : prog A) (v : A) : Prop :=
  (forall T o, accepts p T m o <-> o = v) /\
  (forall inv G Tb, inverses p inv -> run (honest_div p inv G) Tb m = Some v).
(** No proof is accepted. *)
Definition rejected {A} (p : Z) (m : prog A) : Prop := forall T o, ~ accepts p T m o.

(** [r] is the common shape of three shapes. *)
Definition broadcast3 (a b c r : list nat) : Prop := exists ab, broadcasts_to a b ab /\ broadcasts_to ab c r.

(** GatherElements takes indices of the rank of the data, at most as large along the other
    axes; the axis is not empty. *)
Definition gather_args (axis : nat) (idx x : tensor Z) : Prop :=
  length (dims idx) = length (dims x) /\ axis_dim axis x <> 0%nat /\
  forall k, (k < length (dims x))%nat -> k <> axis -> (nth k (dims idx) 0 <= nth k (dims x) 0)%nat.

(** The sum of the products. *)
Definition dot (xs ws : list Z) : Z := fold_right (fun xw s => fst xw * snd xw + s) 0 (combine xs ws).
