(** Specification vocabulary for the activation layers: fixed-point values of
    scale [a] (a power of two), functions given by tables.  Nothing here refers
    to the model of the code. *)
From Coq Require Import ZArith List.
From Verif Require Import Spec.Numbers.
Import ListNotations.
Local Open Scope Z_scope.

(** [n] is a nearest integer to the square root of [v]. *)
Definition nearest_root (v n : Z) : Prop :=
  0 <= n /\ (n = 0 \/ (2 * n - 1) * (2 * n - 1) <= 4 * v) /\ 4 * v < (2 * n + 1) * (2 * n + 1).

(** [n] is a nearest integer to u / d. *)
Definition nearest_quotient (u d n : Z) : Prop := 2 * Z.abs (n * d - u) <= d.

(** LeakyReLU with slope alpha / a, rounded down. *)
Definition leaky (a alpha x : Z) : Z := if 0 <=? x then x else alpha * x / a.

(** x * min(max(x + 3, 0), 6) at scale a^2: six times HardSwish. *)
Definition hard_swish6 (a x : Z) : Z := x * clip (Some 0) (Some (6 * a)) (x + 3 * a).

(** The clamp to signed integers of [w] bits. *)
Definition clamp (w : nat) (x : Z) : Z := clip (Some (- 2 ^ Z.of_nat (w - 1))) (Some (2 ^ Z.of_nat (w - 1) - 1)) x.

(** The exponential at scale a^2, given a table function [E] that is the
    exponential at scale a: exp(high part of x) * exp(low part of x). *)
Definition table_exp (tb : nat) (E : Z -> Z) (x : Z) : Z :=
  E (x / 2 ^ Z.of_nat (tb / 2) * 2 ^ Z.of_nat (tb / 2)) * E (x mod 2 ^ Z.of_nat (tb / 2)).

(** The keys of a table of signed integers of [tb] bits. *)
Definition key (tb : nat) (x : Z) : Prop := - 2 ^ Z.of_nat (tb - 1) <= x < 2 ^ Z.of_nat (tb - 1).

(** The prover's answers [G] to the exponential hint (number 1) at scale [a] are
    the entries of the table. *)
Definition answers_exp (p : Z) (tb : nat) (a : Z) (E : Z -> Z) (G : nat -> list Z -> nat -> option (list Z)) : Prop :=
  forall k, key tb k -> G 1%nat [enc p k; enc p a] 1%nat = Some [enc p (E k)].
