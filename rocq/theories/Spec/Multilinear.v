(** Specification vocabulary: the equality polynomial and the multilinear
    extension of a table over the Boolean cube.  Index [i] of a table stands for
    the cube point whose j-th coordinate is bit j of [i]. *)
From Coq Require Import List Arith.
From Verif Require Import Base.Field.
Import ListNotations.

Section Multilinear.
Variable K : field.
Local Open Scope fld_scope.

(** Product of a list. *)
Fixpoint fprod (l : list K) : K := match l with [] => 1 | a :: r => a * fprod r end.

(** [sumn n g] = g(0) + ... + g(n-1). *)
Definition sumn (n : nat) (g : nat -> K) : K := fsum (map g (seq 0 n)).

(** eq(r, i) = prod over j of (r_j if bit j of i is set, else 1 - r_j). *)
Definition eq_point (r : list K) (i : nat) : K :=
  fprod (map (fun j => if Nat.testbit i j then nth j r 0 else 1 - nth j r 0) (seq 0 (length r))).

(** The multilinear extension of the table f(0) .. f(2^n - 1) at the point r of
    length n. *)
Definition mle (f : nat -> K) (r : list K) : K :=
  sumn (2 ^ length r) (fun i => f i * eq_point r i).

(** The multilinear polynomial with monomial coefficients c: coefficient
    c(i) belongs to the product of the variables whose bit is set in i. *)
Definition monomial (r : list K) (i : nat) : K :=
  fprod (map (fun j => if Nat.testbit i j then nth j r 0 else 1) (seq 0 (length r))).
Definition from_coeffs (c : nat -> K) (r : list K) : K :=
  sumn (2 ^ length r) (fun i => c i * monomial r i).

(** The univariate polynomial with coefficients c (lowest degree first). *)
Definition poly_at (c : list K) (x : K) : K := sumn (length c) (fun i => nth i c 0 * fpow x i).

(** Characteristic not two or three (needed to interpolate from the values at
    0, 1, 2 (and 3)). *)
Definition char_ne_2 : Prop := (1 + 1 : K) <> 0.
Definition char_ne_3 : Prop := (1 + 1 + 1 : K) <> 0.

End Multilinear.
Arguments fprod {_}. Arguments sumn {_}. Arguments eq_point {_}. Arguments mle {_}.
Arguments monomial {_}. Arguments from_coeffs {_}. Arguments poly_at {_}.

(** Coefficients of (x - r) * q(x). *)
Fixpoint shift_sub {K : field} (r prev : K) (q : list K) : list K :=
  match q with [] => [prev] | b :: t => fsub prev (fmul r b) :: shift_sub r b t end.
Definition times_linear {K : field} (r : K) (q : list K) : list K := shift_sub r f0 q.
