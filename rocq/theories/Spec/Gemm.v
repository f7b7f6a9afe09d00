(** The ONNX meaning of Gemm with alpha = beta = 1: Y = A' * B' + C, where A' is A or its
    transpose, and C is broadcast to the product. *)
From Coq Require Import List Arith ZArith Bool.
From Verif Require Import Spec.Shapes Spec.Tensors Spec.Conv Model.Gemm.
Import ListNotations.
Local Open Scope Z_scope.

Definition mat (t : tensor Z) (i j : nat) : Z := match elem t [i; j] with Some v => v | None => 0 end.
(** Entry of A', and the size of A', which is [r] x [c] *)
Definition operand (tr : bool) (t : tensor Z) (i j : nat) : Z := if tr then mat t j i else mat t i j.
Definition sized (tr : bool) (t : tensor Z) (r c : nat) : Prop := dims t = if tr then [c; r] else [r; c].

Definition gemm_operands (ta tb : bool) (a b c : tensor Z) : Prop :=
  well_formed a /\ well_formed b /\ well_formed c /\
  exists m k n, sized ta a m k /\ sized tb b k n /\ expands_to (dims c) [m; n].
Definition gemm (ta tb : bool) (a b c y : tensor Z) : Prop :=
  well_formed y /\ exists m k n, sized ta a m k /\ sized tb b k n /\ dims y = [m; n] /\
  forall i j, (i < m)%nat -> (j < n)%nat -> exists bias,
    elem c (read_coords [i; j] (dims c)) = Some bias /\
    elem y [i; j] = Some (sum_to k (fun e => operand ta a i e * operand tb b e j) + bias).

(** C is not one column beside a product of several columns. *)
Definition not_a_column (c y : tensor Z) : Prop :=
  forall m n, dims y = [m; n] -> dims c = [m; 1%nat] -> m = 1%nat \/ n = 1%nat.

(** The attributes of the node say this; alpha and beta are 1. *)
Definition gemm_attributes (P : gemm_params) (ta tb : bool) : Prop :=
  transa P = (if ta then 1 else 0)%nat /\ transb P = (if tb then 1 else 0)%nat /\ alpha_one P = true /\ beta_one P = true.
(** [l] lists the rows of the operand, modulo p. *)
Definition rows_modulo (p : Z) (tr : bool) (t : tensor Z) (l : list (list Z)) : Prop :=
  exists r c, sized tr t r c /\ l = map (fun i => map (fun j => operand tr t i j mod p) (seq 0 c)) (seq 0 r).
