(** Matrices over the integers modulo p, and all vectors over the field. *)
From Coq Require Import ZArith List.
From Verif Require Import Spec.Numbers.
Import ListNotations.
Local Open Scope Z_scope.

Definition entry (M : list (list Z)) (i j : nat) : Z := nth j (nth i M []) 0.

(** [M] is an r x c matrix of canonical residues. *)
Definition is_matrix (p : Z) (r c : nat) (M : list (list Z)) : Prop :=
  length M = r /\ forall row, In row M -> length row = c /\ forall v, In v row -> 0 <= v < p.

(** [C] is the product of the l x m matrix [A] and the m x n matrix [B] modulo p. *)
Definition is_product (p : Z) (l m n : nat) (A B C : list (list Z)) : Prop :=
  forall i j, (i < l)%nat -> (j < n)%nat ->
    entry C i j = zsum (map (fun k => entry A i k * entry B k j) (seq 0 m)) mod p.

(** All vectors of length [n], and all lists of [k] such vectors. *)
Fixpoint tuples {X} (elems : list X) (n : nat) : list (list X) :=
  match n with
  | O => [[]]
  | S m => flat_map (fun v => map (fun a => a :: v) elems) (tuples elems m)
  end.
Definition residues (p : Z) : list Z := map Z.of_nat (seq 0 (Z.to_nat p)).
