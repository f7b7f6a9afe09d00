(** Closeness on the circle of integers modulo [p]. *)
From Coq Require Import List ZArith.
Import ListNotations.
Local Open Scope Z_scope.

(** [e] and [a] are at most [tol] steps apart, in either direction. *)
Definition near (p tol e a : Z) : Prop := exists k, - tol <= k <= tol /\ (e - a - k) mod p = 0.

(** The integers the field of order [p] can represent with a sign. *)
Definition representable (p v : Z) : Prop := Z.abs v <= (p - 1) / 2.
