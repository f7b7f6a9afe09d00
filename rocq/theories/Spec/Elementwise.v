(** Meaning of Max, Min, Mul, Div, Neg and BatchNormalization ([pointwise2] of Spec/Selection
    gives the broadcasting of two operands). *)
From Coq Require Import List Arith ZArith Bool.
From Verif Require Import Spec.Numbers Spec.Shapes Spec.Tensors Spec.Selection.
Import ListNotations.
Local Open Scope Z_scope.

(** Operands without empty axes. *)
Definition operands (a b : tensor Z) : Prop :=
  well_formed a /\ well_formed b /\ Forall (lt 0%nat) (dims a) /\ Forall (lt 0%nat) (dims b).

(** The bits that hold the remainders of a division by [d]. *)
Definition remainder_bits (d : Z) : nat := Z.to_nat (Z.log2_up d).

(** [r] bits are rounded up to a multiple of the chunk by [round]; the division of [x] by [d]
    fits the field: the quotient has [s] bits and a sign. *)
Definition division_fits (p : Z) (round : nat -> nat) (s : nat) (x d : Z) : Prop :=
  1 <= d < 2 ^ 32 /\
  (d = 1 \/ d * 2 ^ Z.of_nat (round (s + 1)%nat) + 2 * 2 ^ Z.of_nat (round (remainder_bits d)) <= p /\
            - (d * 2 ^ Z.of_nat s) <= x < d * 2 ^ Z.of_nat s).

Definition extremum (is_max : bool) : Z -> Z -> Z := if is_max then Z.max else Z.min.
(** Max and Min of any number of operands, one after the other. *)
Inductive folded (g : Z -> Z -> Z) : list (tensor Z) -> tensor Z -> Prop :=
| folded_one a : folded g [a] a
| folded_more a b ab l y : well_formed ab -> pointwise2 g a b ab -> folded g (ab :: l) y -> folded g (a :: b :: l) y.

(** Batch normalisation, folded to a factor and a summand per channel. *)
Definition normalised (x w b y : tensor Z) : Prop :=
  exists n ch rest, dims x = n :: ch :: rest /\ dims w = [ch] /\ dims b = [ch] /\ dims y = dims x /\
  forall i c cs, Shapes.in_range (i :: c :: cs) (dims x) -> exists v f g,
    elem x (i :: c :: cs) = Some v /\ elem w [c] = Some f /\ elem b [c] = Some g /\ elem y (i :: c :: cs) = Some (v * f + g).
