(** MatMul: rust/jstprove_circuits/src/circuit_functions/layers/matmul.rs.  The look-up of tensors
    by name and the layout of arrays are not modelled.  The matrices the prover claims and the
    challenges of the Freivalds check, one for each pair of matrices, are arguments. *)
From Coq Require Import List Arith Bool ZArith.
From Verif Require Base.Array.
From Verif Require Import Spec.Shapes Spec.Tensors Model.Builder Model.Gadgets Model.Freivalds Model.Selection Model.DataMovement Model.Gemm.
Import ListNotations.
Local Open Scope Z_scope.

(** matmul.rs:422-424: [.slice(s![i, .., ..])] of an array of matrices of [r] rows *)
Definition batch_slice (r c i : nat) (l : list Z) : matrix :=
  {| m_rows := r; m_cols := c; m_data := rows_of r c (firstn (r * c) (skipn (i * (r * c)) l)) |}.

Section MatMul.
Variable p : Z.
Variable c : nat.

(** matmul.rs:236-278 matmul_2d_core; the subtractions panic below zero, which only empty
    matrices reach *)
Definition matmul_2d_core (reps : nat) (claimed : matrix) (challenges : list (list Z)) (A B : matrix) : prog matrix :=
  let ell := m_rows A in let m := m_cols A in let n := m_cols B in
  if (0 <? reps)%nat && ((2 * ell * m * n <? ell * n) || (2 * (ell * m + ell * n + m * n) <? m + 2 * ell))%nat then Fail 90
  else if should_use_freivalds ell m n reps then
    let* _ := freivalds p A B claimed challenges in Ret claimed
  else matrix_multiplication p A B.

(** matmul.rs:280-315 apply_2d *)
Definition apply_2d (reps : nat) (claimed : nat -> matrix) (challenges : nat -> list (list Z)) (a w : tensor Z) : prog (tensor Z) :=
  match dims a, dims w with
  | [l; m], [m2; n] =>
      if negb (m =? m2)%nat then Fail 91 else
      let* r := matmul_2d_core reps (claimed 0%nat) (challenges 0%nat) (batch_slice l m 0 (flat a)) (batch_slice m2 n 0 (flat w)) in
      Ret {| dims := [m_rows r; m_cols r]; flat := concat (m_data r) |}
  | _, _ => Fail 92
  end.

Definition is_empty (l : list nat) : bool := match l with [] => true | _ => false end.
(** matmul.rs:322-454 apply_nd_batched and 457-473 stack_batch_slices *)
Definition apply_nd_batched (reps : nat) (claimed : nat -> matrix) (challenges : nat -> list (list Z)) (a w : tensor Z) : prog (tensor Z) :=
  let a_rank := length (dims a) in let b_rank := length (dims w) in
  if ((a_rank <? 2) || (b_rank <? 2))%nat then Fail 93 else
  let rows_a := nth (a_rank - 2) (dims a) 0%nat in
  let k_a := nth (a_rank - 1) (dims a) 0%nat in
  let k_b := nth (b_rank - 2) (dims w) 0%nat in
  let cols_b := nth (b_rank - 1) (dims w) 0%nat in
  if negb (k_a =? k_b)%nat then Fail 94 else
  let a_batch_dims := firstn (a_rank - 2) (dims a) in
  let b_batch_dims := firstn (b_rank - 2) (dims w) in
  let a_batch := Nat.max (prod a_batch_dims) 1 in
  let b_batch := Nat.max (prod b_batch_dims) 1 in
  let b_is_batched := negb (is_empty b_batch_dims) in
  if b_is_batched && negb (is_empty a_batch_dims) && (if list_eq_dec Nat.eq_dec a_batch_dims b_batch_dims then false else true)
  then Fail 95 else
  let* a_flat := lift (from_shape_vec [a_batch; rows_a; k_a] (flat a)) in
  let* b_flat := lift (from_shape_vec (if b_is_batched then [b_batch; k_b; cols_b] else [k_b; cols_b]) (flat w)) in
  let iter_batch := Nat.max a_batch b_batch in
  let* slices := mapM (fun i =>
    let a_idx := if (a_batch =? 1)%nat then 0%nat else i in
    matmul_2d_core reps (claimed i) (challenges i) (batch_slice rows_a k_a a_idx (flat a_flat))
      (batch_slice k_b cols_b (if b_is_batched then i else 0%nat) (flat b_flat))) (seq 0 iter_batch) in
  let* stacked := lift (from_shape_vec [iter_batch; rows_a; cols_b] (concat (map (fun r => concat (m_data r)) slices))) in
  let out_batch := if b_is_batched then b_batch_dims else a_batch_dims in
  lift (from_shape_vec (out_batch ++ [rows_a; cols_b]) (flat stacked)).

(** matmul.rs:48-93 apply; 152-213 build requires two axes or more of both inputs, as announced,
    which apply checks again *)
Definition matmul_layer (reps : nat) (is_rescale : bool) (kappa n_bits : nat) (claimed : nat -> matrix)
    (challenges : nat -> list (list Z)) (a w : tensor Z) : prog (tensor Z) :=
  let* core := if ((length (dims a) <=? 2) && (length (dims w) <=? 2))%nat
    then apply_2d reps claimed challenges a w else apply_nd_batched reps claimed challenges a w in
  let* out := maybe_rescale p c (flat core) is_rescale false kappa n_bits in
  Ret {| dims := dims core; flat := out |}.
End MatMul.

(** /repo/rust/jstprove_onnx/src/shape_inference.rs:2422-2509 infer_matmul *)
Definition infer_matmul (a_shape b_shape : list nat) : option (list nat) :=
  let '(a2, a_was_1d) := match a_shape with [d] => ([1; d]%nat, true) | _ => (a_shape, false) end in
  let '(b2, b_was_1d) := match b_shape with [d] => ([d; 1]%nat, true) | _ => (b_shape, false) end in
  if ((length a2 <? 2) || (length b2 <? 2))%nat then None else
  let m := nth (length a2 - 2) a2 0%nat in
  let k_a := nth (length a2 - 1) a2 0%nat in
  let k_b := nth (length b2 - 2) b2 0%nat in
  let n := nth (length b2 - 1) b2 0%nat in
  if negb (k_a =? k_b)%nat then None else
  let a_batch := firstn (length a2 - 2) a2 in
  let b_batch := firstn (length b2 - 2) b2 in
  Array.obind (if is_empty a_batch && is_empty b_batch then Some []
               else if is_empty a_batch then Some b_batch
               else if is_empty b_batch then Some a_batch
               else broadcast_shapes a_batch b_batch) (fun batch_shape =>
  Some (batch_shape ++ (if a_was_1d then [] else [m]) ++ (if b_was_1d then [] else [n]))).
