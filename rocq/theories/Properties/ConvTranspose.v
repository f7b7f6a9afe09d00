(** ConvTranspose.  Theorems only, with a case that meets the hypotheses. *)
From Coq Require Import List Arith Bool ZArith Znumtheory Lia.
From Verif Require Import Spec.Numbers Spec.Shapes Spec.Tensors Spec.HonestProver Spec.Selection Spec.Conv Spec.ConvTranspose
  Model.Builder Model.Gadgets Model.Selection Model.ConvTranspose Model.ConvTransposeLayer
  Proofs.RangeCheck Proofs.ConvLayer Proofs.ConvTranspose Proofs.ConvTransposeLayer.
Import ListNotations.
Local Open Scope Z_scope.

(** ** C132: ConvTranspose is the ONNX transposed convolution: every accepted output is, the
    honest prover succeeds, and the inferred shape is that of the output. *)
Theorem C132_conv_transpose_exact p c F k s is_rescale a g extra_h extra_w x w b y out :
  prime p -> (0 < c)%nat -> (k < 32)%nat -> (s < 64)%nat -> width_ok c k -> width_ok c (s + 1) ->
  2 * (2 ^ Z.of_nat k * 2 ^ Z.of_nat (rounded c (s + 1)) + 2 ^ Z.of_nat (rounded c k)) <= p ->
  (k mod c = 0)%nat -> ((s + 1) mod c = 0)%nat ->
  transpose_operands g extra_h extra_w x w b -> ct_attributes a g extra_h extra_w w -> well_formed y -> transposed g extra_h extra_w x w b y ->
  Forall (layer_range k s is_rescale false) (flat y) ->
  accepts p (table_rows c F) (conv_transpose_layer p c a is_rescale k (s + 1) (encoded p x) (encoded p w) (encoded p b)) out <->
  out = encoded p (after_layer k is_rescale false y).
Proof. exact (fun h1 h2 h3 h4 h5 h6 h7 => ct_layer_sound p c F k s is_rescale h1 h2 h3 h4 h5 h6 h7 a g extra_h extra_w x w b y out). Qed.
Print Assumptions C132_conv_transpose_exact.
Theorem C132_conv_transpose_complete p c F k s is_rescale a g extra_h extra_w x w b y :
  prime p -> (0 < c)%nat -> (k < 32)%nat -> (s < 64)%nat -> width_ok c k -> width_ok c (s + 1) ->
  2 * (2 ^ Z.of_nat k * 2 ^ Z.of_nat (rounded c (s + 1)) + 2 ^ Z.of_nat (rounded c k)) <= p ->
  transpose_operands g extra_h extra_w x w b -> ct_attributes a g extra_h extra_w w -> well_formed y -> transposed g extra_h extra_w x w b y ->
  Forall (layer_range k s is_rescale false) (flat y) ->
  run honest_hint (table_rowsb c F) (conv_transpose_layer p c a is_rescale k (s + 1) (encoded p x) (encoded p w) (encoded p b)) =
  Some (encoded p (after_layer k is_rescale false y)).
Proof. exact (fun h1 h2 h3 h4 h5 h6 h7 => ct_layer_run p c F k s is_rescale h1 h2 h3 h4 h5 h6 h7 a g extra_h extra_w x w b y). Qed.
Print Assumptions C132_conv_transpose_complete.
Theorem C132_conv_transpose_shape a g extra_h extra_w x w b y :
  transpose_operands g extra_h extra_w x w b -> ct_attributes a g extra_h extra_w w -> transposed g extra_h extra_w x w b y ->
  infer_conv_transpose a (dims x) (dims w) = Some (dims y).
Proof. exact (infer_ct_ok a g extra_h extra_w x w b y). Qed.
Print Assumptions C132_conv_transpose_shape.
(** With groups (which the layer refuses, C133) the inferred channels are those of all groups. *)
Theorem C132_conv_transpose_group_shape a dx dw n ch rest q : (0 < q)%nat -> group_attr a = None ->
  infer_conv_transpose a dx dw = Some (n :: ch :: rest) -> infer_conv_transpose (with_group a q) dx dw = Some (n :: (ch * q)%nat :: rest).
Proof. exact (infer_ct_groups a dx dw n ch rest q). Qed.
Print Assumptions C132_conv_transpose_group_shape.
(** The transposed convolution of fitting operands always exists. *)
Theorem C132_conv_transpose_defined g extra_h extra_w x w b : transpose_operands g extra_h extra_w x w b ->
  exists y, well_formed y /\ transposed g extra_h extra_w x w b y.
Proof. exact (transposed_exists g extra_h extra_w x w b). Qed.
Print Assumptions C132_conv_transpose_defined.
Definition image : tensor Z := t4 [1; 2; 2; 2]%nat [1; 2; 3; 4; 5; 6; 7; 8].
Definition kernels : tensor Z := t4 [2; 1; 2; 2]%nat [-3; 2; 0; -2; 3; 1; -1; -3].
Definition biases : tensor Z := t4 [1%nat] [100].
Definition node : ct_node :=
  {| kernel_attr := Some [2; 2]%nat; strides_attr := Some [2; 2]%nat; pads_attr := Some [1; 1; 1; 1]%nat; output_padding_attr := Some [1; 1]%nat;
     dilations_attr := None; output_shape_attr := None; group_attr := None |}.
Example C132_applies : transpose_operands (square 2 1) 1 1 image kernels biases /\ ct_attributes node (square 2 1) 1 1 kernels /\
  ct_build node = Some (ct_P 2 2 1 1 (square 2 1)) /\
  ct_sums 1009 (ct_P 2 2 1 1 (square 2 1)) (encoded 1009 image) (encoded 1009 kernels) (encoded 1009 biases) =
    Some (encoded 1009 (t4 [1; 1; 3; 3]%nat [83; 94; 78; 113; 112; 116; 73; 92; 68])).
Proof.
  split.
  { split; [reflexivity|]. split; [reflexivity|]. split; [cbn; lia|]. split; [cbn; lia|].
    exists 1%nat, 2%nat, 2%nat, 2%nat, 1%nat, 2%nat, 2%nat. do 2 (split; [reflexivity|]). do 6 (split; [cbn; lia|]). right. now split. }
  split; [|split; reflexivity].
  split; [reflexivity|]. do 3 (split; [left; reflexivity|]). do 2 (split; [right; now split|]). reflexivity.
Qed.

(** ** C133: an attribute of ConvTranspose that the layer does not support is refused.
    Refuted: output_shape decides the inferred shape and is ignored by the layer, whose output
    has another shape. *)
Theorem C133_conv_transpose_checked_refuted p c k n_bits : exists a x w b shape out, well_formed x /\ well_formed w /\
  infer_conv_transpose a (dims x) (dims w) = Some shape /\
  yields p (conv_transpose_layer p c a false k n_bits (encoded p x) (encoded p w) (encoded p b)) out /\
  well_formed out /\ dims out <> shape.
Proof. exact (output_shape_ignored p c k n_bits). Qed.
Print Assumptions C133_conv_transpose_checked_refuted.
(** Everything else that is malformed or not supported is refused. *)
Theorem C133_conv_transpose_checked_partial p c a is_rescale k n_bits x w b : ct_refused a x w b ->
  rejected p (conv_transpose_layer p c a is_rescale k n_bits x w b).
Proof. exact (ct_refuses p c a is_rescale k n_bits x w b). Qed.
Print Assumptions C133_conv_transpose_checked_partial.
Example C133_applies : ct_refused (ct_plain [1; 1]%nat) image kernels biases /\ ct_refused node image kernels (t4 [2%nat] [1; 2]).
Proof.
  split.
  - left. right. exists [1; 1]%nat. split; [reflexivity|]. right. right. discriminate.
  - do 9 right. split; discriminate.
Qed.
