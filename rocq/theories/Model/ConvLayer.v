(** The Conv layer over the circuit builder:
    rust/jstprove_circuits/src/circuit_functions/layers/conv.rs.  The look-up of tensors by
    name is not modelled; an absent bias is the empty tensor (85). *)
From Coq Require Import List ZArith.
From Verif Require Import Spec.Tensors Model.Builder Model.Gadgets Model.Selection Model.Conv.
Import ListNotations.

(** conv.rs:59-115 apply, 591-622 conv_4d_run *)
Definition conv_layer (p : Z) (c : nat) (P : conv_params) (is_rescale is_relu : bool) (kappa n_bits : nat)
    (x w bias : tensor Z) : prog (tensor Z) :=
  let* sums := lift (conv_sums p P x w bias) in
  let* out := maybe_rescale p c (flat sums) is_rescale is_relu kappa n_bits in
  Ret {| dims := dims sums; flat := out |}.
