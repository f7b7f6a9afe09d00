(** Specification vocabulary of the Remainder backend properties.  Nothing here
    refers to the model of the code. *)
From Coq Require Import ZArith List.
Import ListNotations.
Local Open Scope Z_scope.

(** A signed 64-bit integer. *)
Definition i64 (x : Z) : Prop := - 2 ^ 63 <= x < 2 ^ 63.

(** [v] is written with [w] bits. *)
Definition in_width (w : nat) (v : Z) : Prop := 0 <= v < 2 ^ Z.of_nat w.

(** Entry [i] of a vector, zero outside. *)
Definition entry (l : list Z) (i : nat) : Z := nth i l 0.

(** How often [v] occurs in [l]. *)
Definition occurrences (v : Z) (l : list Z) : Z := Z.of_nat (length (filter (Z.eqb v) l)).

(** [m] lists how often each number of [w] bits occurs in [values]. *)
Definition counts (m values : list Z) (w : nat) : Prop :=
  length m = (2 ^ w)%nat /\ (forall j, (j < 2 ^ w)%nat -> entry m j = occurrences (Z.of_nat j) values) /\
  fold_right Z.add 0 m = Z.of_nat (length values).

(** The signed integer a field element of order [p] stands for. *)
Definition signed (p x : Z) : Z := let r := x mod p in if 2 * r <? p then r else r - p.
