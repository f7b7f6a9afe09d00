(** The layers Max, Min, Mul, Div, Neg and BatchNormalization.
    Paths are relative to /repo/rust/jstprove_circuits/src/circuit_functions, [inf] is
    /repo/rust/jstprove_onnx/src/shape_inference.rs.  Simplifications: the operands are given as
    tensors, whether they are constants of the model or outputs of other layers; the caches of
    circuit constants are left out. *)
From Coq Require Import List Arith Bool ZArith.
From Verif Require Base.Array.
From Verif Require Import Spec.Numbers Spec.Tensors Model.Builder Model.Gadgets Model.Layers Model.Shapes Model.DataMovement Model.Selection.
Import ListNotations.
Local Open Scope Z_scope.

Section E.
Variable p : Z.
Variable c : nat.

(** layers/binary_compare.rs:29-96 apply and 98-129 build: only the first two operands are read *)
Definition compare_layer (is_max : bool) (n_bits : nat) (inputs : list (tensor Z)) : prog (tensor Z) :=
  let* a_input := lift (nth_error inputs 0) in
  let* b_input := lift (nth_error inputs 1) in
  let* ab := broadcast_two_arrays a_input b_input in
  if (n_bits =? 0)%nat then Fail 90 else
  let shift_exponent := (n_bits - 1)%nat in
  let* offset := shift_ctx p shift_exponent in
  let* out_storage := mapM (fun '(a_val, b_val) =>
    if is_max then constrained_max_2 p c shift_exponent offset a_val b_val
    else constrained_min_2 p c shift_exponent offset a_val b_val) (combine (flat (fst ab)) (flat (snd ab))) in
  lift (from_shape_vec (dims (fst ab)) out_storage).

(** layers/mul.rs:40-83 apply, with gadgets/linear_algebra.rs:174-220 elementwise_op *)
Definition mul_layer (is_rescale is_relu : bool) (scaling n_bits : nat) (a b : tensor Z) : prog (tensor Z) :=
  let* result := elementwise (fun u v => Ret (mul p u v)) a b in
  let* out := maybe_rescale p c (flat result) is_rescale is_relu scaling n_bits in
  Ret {| dims := dims result; flat := out |}.

(** layers/div.rs:195-206 validate_divisors *)
Definition validate_divisors (divisors : list Z) : prog unit :=
  if forallb (fun d => (1 <=? d) && (d <=? 2 ^ 32 - 1)) divisors then Ret tt else Fail 91.
(** layers/div.rs:35-168 apply; [divisor_constants] is absent when the divisor is computed *)
Definition div_layer (scaling n_bits : nat) (a : tensor Z) (divisor_constants : option (tensor Z)) : prog (tensor Z) :=
  let* b := lift divisor_constants in
  let* out_shape := lift (broadcast_shapes (dims a) (dims b)) in
  let* broadcasted_a := lift (broadcast_array a out_shape) in
  let* broadcasted_divisors := lift (broadcast_array b out_shape) in
  let* _ := validate_divisors (flat broadcasted_divisors) in
  if (n_bits =? 0)%nat then Fail 92 else
  let s := (n_bits - 1)%nat in
  let* _ := rescaling_context p scaling s in
  let shift_native := pow2 s in
  let* result := mapM (fun '(dividend, divisor_val) =>
    if divisor_val =? 1 then Ret dividend
    else div_const p c dividend (const p divisor_val) divisor_val (const p (shift_native * divisor_val)) s (const p shift_native))
    (combine (flat broadcasted_a) (flat broadcasted_divisors)) in
  lift (from_shape_vec out_shape result).

(** layers/neg.rs:22-52 apply *)
Definition neg_layer (x : tensor Z) : prog (tensor Z) :=
  lift (from_shape_vec (dims x) (map (fun v => sub p (const p 0) v) (flat x))).

(** utils/tensor_ops.rs:259-293 reshape_channel_vector_for_broadcast *)
Definition reshape_channel_vector (vec target : tensor Z) : prog (tensor Z) :=
  if negb (length (dims vec) =? 1)%nat then Fail 93 else
  let channels := length (flat vec) in
  match dims target with
  | _ :: d1 :: rest =>
      if negb (d1 =? channels)%nat then Fail 94 else lift (from_shape_vec (channels :: repeat 1%nat (length rest)) (flat vec))
  | _ => Fail 94
  end.
(** layers/batchnorm.rs:40-100 apply *)
Definition batchnorm_layer (is_rescale is_relu : bool) (scaling n_bits : nat) (layer_input mul_raw add_raw : tensor Z) : prog (tensor Z) :=
  let* mul_input := reshape_channel_vector mul_raw layer_input in
  let* add_input := reshape_channel_vector add_raw layer_input in
  let* mul_out := elementwise (fun u v => Ret (mul p u v)) layer_input mul_input in
  let* result := elementwise (fun u v => Ret (add p u v)) mul_out add_input in
  let* out := maybe_rescale p c (flat result) is_rescale is_relu scaling n_bits in
  Ret {| dims := dims result; flat := out |}.
End E.

(** inf:678, 685-687 and 759-771 passthrough_shape, for Max and Min *)
Definition infer_compare (shapes : list (list nat)) : option (list nat) := nth_error shapes 0.
