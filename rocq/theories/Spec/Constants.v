(** How the constants of a model should enter a fixed-point circuit. *)
From Coq Require Import List ZArith QArith Qround Qabs.
Import ListNotations.

(** [n] is a nearest integer to [q]. *)
Definition nearest_int (q : Q) (n : Z) : Prop := (Qabs (q - inject_Z n) <= 1 # 2)%Q.
(** [l] are the values [v] at the scale alpha^k. *)
Definition at_scale (alpha : Z) (k : nat) (v : list Q) (l : list Z) : Prop :=
  Forall2 (fun q n => nearest_int (q * inject_Z (alpha ^ Z.of_nat k)) n) v l.
(** The integer part. *)
Definition int_part (q : Q) (n : Z) : Prop :=
  (0 <= q /\ inject_Z n <= q < inject_Z (n + 1))%Q \/ (q <= 0 /\ inject_Z (n - 1) < q <= inject_Z n)%Q.
