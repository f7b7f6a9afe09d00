(** Conv.  Theorems only, with a case that meets the hypotheses. *)
From Coq Require Import List Arith Bool ZArith Znumtheory Lia.
From Verif Require Import Spec.Numbers Spec.Shapes Spec.Tensors Spec.HonestProver Spec.Selection Spec.Conv
  Model.Builder Model.Gadgets Model.Selection Model.Conv Model.ConvLayer Proofs.RangeCheck Proofs.ConvLayer.
Import ListNotations.
Local Open Scope Z_scope.

(** ** C128: an accepted proof of Conv carries the ONNX convolution. *)
Theorem C128_conv_sound p c F k s is_rescale is_relu P g x w b y out :
  prime p -> (0 < c)%nat -> (k < 32)%nat -> (s < 64)%nat -> width_ok c k -> width_ok c (s + 1) ->
  2 * (2 ^ Z.of_nat k * 2 ^ Z.of_nat (rounded c (s + 1)) + 2 ^ Z.of_nat (rounded c k)) <= p ->
  (k mod c = 0)%nat -> ((s + 1) mod c = 0)%nat ->
  conv_operands g x w b -> attributes P g w -> well_formed y -> convolved g x w b y ->
  Forall (layer_range k s is_rescale is_relu) (flat y) ->
  accepts p (table_rows c F) (conv_layer p c P is_rescale is_relu k (s + 1) (encoded p x) (encoded p w) (encoded p b)) out ->
  out = encoded p (after_layer k is_rescale is_relu y).
Proof. exact (fun a b0 c0 d e f h => conv_layer_sound p c F k s is_rescale is_relu a b0 c0 d e f h P g x w b y out). Qed.
Print Assumptions C128_conv_sound.
(** The convolution of fitting operands always exists. *)
Theorem C128_convolution_defined g x w b : conv_operands g x w b -> exists y, well_formed y /\ convolved g x w b y.
Proof. exact (convolution_exists g x w b). Qed.
Print Assumptions C128_convolution_defined.
Definition image : tensor Z := t4 [1; 2; 3; 3]%nat [1; 2; 3; 4; 5; 6; 7; 8; 9; 10; 11; 12; 13; 14; 15; 16; 17; 18].
Definition kernels : tensor Z := t4 [2; 2; 2; 2]%nat [-3; 2; 0; -2; 3; 1; -1; -3; 2; 0; -2; 3; 1; -1; -3; 2].
Definition biases : tensor Z := t4 [2%nat] [10; -20].
Example C128_applies : conv_operands (square 2 1) image kernels biases /\ attributes (attrs [2; 2]%nat 2 1) (square 2 1) kernels /\
  padding_within_kernel (square 2 1) kernels /\
  conv_sums 1009 (attrs [2; 2]%nat 2 1) (encoded 1009 image) (encoded 1009 kernels) (encoded 1009 biases) =
    Some (encoded 1009 (t4 [1; 2; 2; 2]%nat [-22; -43; -31; -25; 3; -24; 20; -15])).
Proof.
  split.
  { split; [reflexivity|]. split; [reflexivity|]. split; [right; exists 2%nat; repeat split|]. split; [cbn; lia|]. split; [cbn; lia|].
    exists 1%nat, 2%nat, 3%nat, 3%nat, 2%nat, 2%nat, 2%nat. cbn. repeat split; lia. }
  split; [repeat split|]. split; [|reflexivity]. exists 2%nat, 2%nat, 2%nat, 2%nat. cbn. repeat split; lia.
Qed.

(** ** C129: every ungrouped, undilated Conv on images whose shape is inferred can be proved.
    Refuted: padding wider than the kernel. *)
Theorem C129_conv_provable_refuted : exists P g x w b shape, conv_operands g x w b /\ attributes P g w /\
  infer_conv (dims x) (dims w) (Some (kernel_shape P)) (Some (strides P)) (Some (pads P)) (Some (dilations P)) = Some shape /\
  shape = output_shape g x w /\
  forall p c is_rescale is_relu k n_bits, rejected p (conv_layer p c P is_rescale is_relu k n_bits (encoded p x) (encoded p w) (encoded p b)).
Proof. exact wide_padding_refused. Qed.
Print Assumptions C129_conv_provable_refuted.
(** With padding up to the kernel the honest prover succeeds, with the convolution. *)
Theorem C129_conv_provable_partial p c F k s is_rescale is_relu P g x w b y :
  prime p -> (0 < c)%nat -> (k < 32)%nat -> (s < 64)%nat -> width_ok c k -> width_ok c (s + 1) ->
  2 * (2 ^ Z.of_nat k * 2 ^ Z.of_nat (rounded c (s + 1)) + 2 ^ Z.of_nat (rounded c k)) <= p ->
  conv_operands g x w b -> attributes P g w -> padding_within_kernel g w -> well_formed y -> convolved g x w b y ->
  Forall (layer_range k s is_rescale is_relu) (flat y) ->
  run honest_hint (table_rowsb c F) (conv_layer p c P is_rescale is_relu k (s + 1) (encoded p x) (encoded p w) (encoded p b)) =
  Some (encoded p (after_layer k is_rescale is_relu y)).
Proof. exact (fun a b0 c0 d e f h => conv_layer_run p c F k s is_rescale is_relu a b0 c0 d e f h P g x w b y). Qed.
Print Assumptions C129_conv_provable_partial.
(** The inferred shape is that of the convolution. *)
Theorem C129_conv_shape_partial P g x w b y : conv_operands g x w b -> attributes P g w -> convolved g x w b y ->
  infer_conv (dims x) (dims w) (Some (kernel_shape P)) (Some (strides P)) (Some (pads P)) (Some (dilations P)) = Some (dims y).
Proof. exact (infer_conv_ok P g x w b y). Qed.
Print Assumptions C129_conv_shape_partial.
(** The case of [C128_applies] meets the hypotheses. *)

(** ** C130: a Conv whose operands do not fit is refused.  Refuted: a kernel_shape that is
    not the shape of the kernels, and kernels with more channels than the image, are accepted,
    and what is in excess is ignored. *)
Theorem C130_conv_checked_refuted p c k n_bits :
  (exists P x w b shape out, well_formed x /\ well_formed w /\ kernel_shape P <> skipn 2 (dims w) /\
    infer_conv (dims x) (dims w) (Some (kernel_shape P)) (Some (strides P)) (Some (pads P)) (Some (dilations P)) = Some shape /\ dims out = shape /\
    yields p (conv_layer p c P false false k n_bits (encoded p x) (encoded p w) (encoded p b)) out) /\
  (exists P x w b shape out, well_formed x /\ well_formed w /\ nth_error (dims w) 1 <> nth_error (dims x) 1 /\
    infer_conv (dims x) (dims w) (Some (kernel_shape P)) (Some (strides P)) (Some (pads P)) (Some (dilations P)) = Some shape /\ dims out = shape /\
    yields p (conv_layer p c P false false k n_bits (encoded p x) (encoded p w) (encoded p b)) out).
Proof. exact (malformed_accepted p c k n_bits). Qed.
Print Assumptions C130_conv_checked_refuted.
(** Other ranks, groups, dilations, strides of zero and missing pads are refused. *)
Theorem C130_conv_checked_partial p c P is_rescale is_relu k n_bits x w b :
  length (dims x) <> 4%nat \/ nth_error (groups P) 0 <> Some 1%nat \/ (exists d, In d (dilations P) /\ d <> 1%nat) \/
  In 0%nat (strides P) \/ (0 < length (pads P) < 4)%nat ->
  rejected p (conv_layer p c P is_rescale is_relu k n_bits x w b).
Proof. exact (conv_refuses p c P is_rescale is_relu k n_bits x w b). Qed.
Print Assumptions C130_conv_checked_partial.
Example C130_applies : (exists d, In d [2; 2]%nat /\ d <> 1%nat) /\ nth_error [4]%nat 0 <> Some 1%nat.
Proof. split; [exists 2%nat; split; [now left|lia]|discriminate]. Qed.
