(** The ConvTranspose layer over the circuit builder:
    rust/jstprove_circuits/src/circuit_functions/layers/conv_transpose.rs. *)
From Coq Require Import List ZArith.
From Verif Require Import Spec.Tensors Model.Builder Model.Gadgets Model.Selection Model.ConvTranspose.
Import ListNotations.

(** conv_transpose.rs:57-266 apply of the layer that build (268-413) makes of the node; the
    rescaling is 251-263 *)
Definition conv_transpose_layer (p : Z) (c : nat) (a : ct_node) (is_rescale : bool) (kappa n_bits : nat)
    (x w bias : tensor Z) : prog (tensor Z) :=
  let* P := lift (ct_build a) in
  let* sums := lift (ct_sums p P x w bias) in
  let* out := maybe_rescale p c (flat sums) is_rescale false kappa n_bits in
  Ret {| dims := dims sums; flat := out |}.
