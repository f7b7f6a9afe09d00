(** Specification vocabulary shared by the arithmetic-gadget properties.
    Nothing here refers to the model of the code. *)
From Coq Require Import ZArith List.
Import ListNotations.
Local Open Scope Z_scope.

(** How a signed integer is represented in the field of order [p]. *)
Definition enc (p x : Z) : Z := x mod p.

(** [x] is a signed integer of [s]+1 bits. *)
Definition signed_fits (s : nat) (x : Z) : Prop := - 2 ^ Z.of_nat s <= x < 2 ^ Z.of_nat s.

(** [m] is the largest (smallest) element of [l]. *)
Definition is_max (l : list Z) (m : Z) : Prop := In m l /\ forall x, In x l -> x <= m.
Definition is_min (l : list Z) (m : Z) : Prop := In m l /\ forall x, In x l -> m <= x.

Definition relu (x : Z) : Z := if 0 <=? x then x else 0.

(** Clipping to optional bounds: first raise to the lower bound, then lower to
    the upper bound (ONNX Clip). *)
Definition clip (lo hi : option Z) (x : Z) : Z :=
  let y := match lo with Some a => Z.max x a | None => x end in
  match hi with Some b => Z.min y b | None => y end.

(** The two primes used by the proof configurations. *)
Definition goldilocks_p : Z := 2 ^ 64 - 2 ^ 32 + 1.
Definition bn254_r : Z :=
  21888242871839275222246405745257275088548364400416034343698204186575808495617.

(** Sum, and mean rounded to nearest (ties upwards). *)
Definition zsum (l : list Z) : Z := fold_right Z.add 0 l.
Definition mean_round (l : list Z) : Z :=
  let n := Z.of_nat (length l) in (zsum l + n / 2) / n.

(** What a layer should output: the optional division by the scale 2^k rounded
    down, then the optional ReLU; and the inputs for which the shift 2^s suffices. *)
Definition layer_output (k : nat) (is_rescale is_relu : bool) (x : Z) : Z :=
  let v := if is_rescale then x / 2 ^ Z.of_nat k else x in if is_relu then Z.max 0 v else v.

Definition layer_range (k s : nat) (is_rescale is_relu : bool) (x : Z) : Prop :=
  if is_rescale then - (2 ^ Z.of_nat k * 2 ^ Z.of_nat s) <= x < 2 ^ Z.of_nat k * 2 ^ Z.of_nat s
  else if is_relu then signed_fits s x else True.
