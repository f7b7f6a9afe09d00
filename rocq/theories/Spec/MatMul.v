(** The ONNX meaning of MatMul: the last two axes are matrices, the axes before them are
    broadcast. *)
From Coq Require Import List Arith ZArith Bool.
From Verif Require Import Spec.Shapes Spec.Tensors Spec.Conv.
Import ListNotations.
Local Open Scope Z_scope.

Definition value_at (t : tensor Z) (c : list nat) : Z := match elem t c with Some v => v | None => 0 end.
(** A and B with batch axes [ba] and [bb], and matrices of m x k and k x n *)
Definition matmul_operands (ba bb : list nat) (m k n : nat) (a b : tensor Z) : Prop :=
  well_formed a /\ well_formed b /\ dims a = ba ++ [m; k] /\ dims b = bb ++ [k; n].
Definition matmul (ba bb : list nat) (m k n : nat) (a b y : tensor Z) : Prop :=
  well_formed y /\ exists o, broadcasts_to ba bb o /\ dims y = o ++ [m; n] /\
  forall c i j, in_range c o -> (i < m)%nat -> (j < n)%nat ->
    elem y (c ++ [i; j]) =
    Some (sum_to k (fun e => value_at a (read_coords c ba ++ [i; e]) * value_at b (read_coords c bb ++ [e; j]))).
(** One operand is a single matrix, or the batch axes are the same; none of them is empty. *)
Definition plain_batches (ba bb : list nat) : Prop :=
  (ba = [] \/ bb = [] \/ ba = bb) /\ Forall (lt 0) ba /\ Forall (lt 0) bb.
(** [l] lists the rows of the matrix of [t] at batch [c], modulo p. *)
Definition batch_modulo (p : Z) (t : tensor Z) (c : list nat) (r q : nat) (l : list (list Z)) : Prop :=
  l = map (fun i => map (fun j => value_at t (c ++ [i; j]) mod p) (seq 0 q)) (seq 0 r).
