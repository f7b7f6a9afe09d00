(** Gemm: rust/jstprove_circuits/src/circuit_functions/layers/gemm.rs.  The look-up of tensors
    by name and the layout of arrays are not modelled.  The matrix the prover claims and the
    challenges of the Freivalds check are arguments, used when that check is chosen. *)
From Coq Require Import List Arith Bool ZArith.
From Verif Require Import Spec.Tensors Model.Builder Model.Gadgets Model.Freivalds Model.Selection Model.DataMovement.
Import ListNotations.
Local Open Scope Z_scope.

(** gemm.rs:69-85 GemmLayer; [alpha_one]: alpha is within 1e-6 of 1 (481-496 check_alpha_beta) *)
Record gemm_params := { transa : nat; transb : nat; alpha_one : bool; beta_one : bool;
  expected_weight_shape : option (nat * nat); freivalds_reps : nat }.

(** The rows of a row-major array *)
Definition rows_of (r c : nat) (l : list Z) : list (list Z) := map (fun i => firstn c (skipn (i * c) l)) (seq 0 r).
(** gemm.rs:110-150 promote_to_2d *)
Definition promote_to_2d (t : tensor Z) (as_column : bool) : prog matrix :=
  match dims t with
  | [n] => let '(r, c) := if as_column then (n, 1%nat) else (1%nat, n) in
    Ret {| m_rows := r; m_cols := c; m_data := rows_of r c (flat t) |}
  | [r; c] => Ret {| m_rows := r; m_cols := c; m_data := rows_of r c (flat t) |}
  | _ => Fail 80
  end.
(** gemm.rs:155-183: the weights *)
Definition weights_2d (P : gemm_params) (w : tensor Z) : prog matrix :=
  match dims w, expected_weight_shape P with
  | [n], Some (r, c) => if (n =? r * c)%nat then Ret {| m_rows := r; m_cols := c; m_data := rows_of r c (flat w) |} else Fail 81
  | _, _ => promote_to_2d w true
  end.
(** utils/shaping.rs:230-247 check_and_apply_transpose_array *)
Definition check_and_apply_transpose (m : matrix) (flag : nat) : prog matrix :=
  match flag with
  | O => Ret m
  | S O => Ret {| m_rows := m_cols m; m_cols := m_rows m; m_data := map (column (m_data m)) (seq 0 (m_cols m)) |}
  | _ => Fail 82
  end.
(** gemm.rs:522-566 should_use_freivalds; u128 does not saturate on sizes of arrays *)
Definition should_use_freivalds (ell m n reps : nat) : bool :=
  if (reps =? 0)%nat then false else
  let cost_full := (2 * ell * m * n - ell * n)%nat in
  let s := (ell * m + ell * n + m * n)%nat in
  let d := (2 * s - (m + 2 * ell))%nat in
  if (d =? 0)%nat then false else (reps * d <? cost_full)%nat.

Section Gemm.
Variable p : Z.
Variable c : nat.

(** gemm.rs:427-475 compute_core_product *)
Definition compute_core_product (reps : nat) (claimed : matrix) (challenges : list (list Z)) (A B : matrix) : prog matrix :=
  if negb (m_cols A =? m_rows B)%nat then Fail 83
  else if should_use_freivalds (m_rows A) (m_cols A) (m_cols B) reps then
    let* _ := freivalds p A B claimed challenges in Ret claimed
  else matrix_multiplication p A B.

(** gemm.rs:218-259: the bias as an array of the shape of the product *)
Definition broadcast_bias (rows cols : nat) (b : tensor Z) : prog (list Z) :=
  if list_eq_dec Nat.eq_dec (dims b) [rows; cols] then Ret (flat b)
  else
    let* row := if (length (flat b) =? cols)%nat then Ret (flat b)
                else if (length (flat b) =? 1)%nat then Ret (repeat (hd (const p 0) (flat b)) cols)
                else Fail 84 in
    Ret (concat (repeat row rows)).

(** gemm.rs:93-277 apply; matrix_addition is gadgets/linear_algebra.rs:54-68, 174-220 *)
Definition gemm_layer (P : gemm_params) (is_rescale is_relu : bool) (kappa n_bits : nat) (claimed : matrix)
    (challenges : list (list Z)) (a w b : tensor Z) : prog (tensor Z) :=
  let* A := promote_to_2d a false in
  let* W := weights_2d P w in
  let* A := check_and_apply_transpose A (transa P) in
  let* W := check_and_apply_transpose W (transb P) in
  if negb (alpha_one P && beta_one P) then Fail 85 else
  let* core := compute_core_product (freivalds_reps P) claimed challenges A W in
  let* bias := broadcast_bias (m_rows core) (m_cols core) b in
  let* out := maybe_rescale p c (map2 (add p) (concat (m_data core)) bias) is_rescale is_relu kappa n_bits in
  Ret {| dims := [m_rows core; m_cols core]; flat := out |}.
End Gemm.
