(** Accepted proofs of the Remainder backend (C63, C74, C76). *)
From Coq Require Import ZArith Znumtheory List Bool Lia String.
From Verif Require Import Base.Array Base.Pocklington Spec.Numbers Spec.Remainder Spec.RemainderCircuit Model.Remainder.
From Verif Require Import Proofs.RemainderSound Proofs.RemainderLayers Proofs.RemainderMlp Proofs.RemainderImages Proofs.RemainderConv
  Proofs.RemainderNorm Proofs.RemainderWitnesses.
Import ListNotations.
Local Open Scope Z_scope.

(** ** C63: widths chosen by the prover *)

(** The claim is false: for one input of a Relu network a proof is accepted, and
    no proof that states another width for the layer is. *)
Theorem C63_refuted : exists m input pf observed,
  verify bn254_r m pf input = true /\
  forall pf', pf_observed pf' = observed -> verify bn254_r m pf' input = false.
Proof. exact widths_matter. Qed.
Print Assumptions C63_refuted.

(** What holds: whatever width the proof states, an accepted Relu is a Relu, on
    inputs below the width in force, and widths above eighteen bits beyond the
    scale are rejected. *)
Theorem C63_relu_width_partial : forall p m pf input k l n x o,
  prime p -> 2 ^ 20 < p ->
  verify p m pf input = true -> layer_at m k l -> l_op l = Relu -> width_is pf l n ->
  nth_error (l_inputs l) 0 = Some x -> In o (l_outputs l) ->
  (n <= m_exponent m + 18)%nat /\
  exists xs ys, tensor_value m pf input k x = Some xs /\ tensor_value m pf input (S k) o = Some ys /\
    List.length ys = List.length xs /\
    forall i, (i < List.length xs)%nat ->
      signed p (entry ys i) = relu (signed p (entry xs i)) /\
      Z.abs (signed p (entry xs i)) < 2 ^ Z.of_nat (Nat.max (n - m_exponent m) 1).
Proof. exact relu_width. Qed.
Print Assumptions C63_relu_width_partial.

Example C63_relu_width_met :
  verify bn254_r relu_model (relu_proof [("t"%string, 9%nat)]) [-20] = true /\
  layer_at relu_model 0 (relu_layer "t" "x" "y" 7) /\ width_is (relu_proof [("t"%string, 9%nat)]) (relu_layer "t" "x" "y" 7) 9.
Proof. repeat split; try (vm_compute; reflexivity). repeat constructor; cbn; intuition congruence. Qed.

(** ** C74: an accepted proof states the quantised inference *)

(** False of two dense layers in a row: two different outputs are accepted for
    the same model and input. *)
Theorem C74_two_outputs_refuted : exists m input pf pf',
  m_alpha m = 2 ^ Z.of_nat (m_exponent m) /\ (forall l, In l (m_layers m) -> l_op l = Gemm /\ weights_ok l) /\
  verify bn254_r m pf input = true /\ verify bn254_r m pf' input = true /\ pf_expected pf = [150] /\ pf_expected pf' = [140].
Proof. exact two_outputs. Qed.
Print Assumptions C74_two_outputs_refuted.

(** False of a transposition: every output is accepted. *)
Theorem C74_any_output_refuted : exists m input, (exists l, m_layers m = [l] /\ l_op l = Transpose) /\
  forall v, exists pf, pf_expected pf = [v] /\ verify bn254_r m pf input = true.
Proof. exact any_output. Qed.
Print Assumptions C74_any_output_refuted.

(** What holds: for perceptrons (chains of dense layers and Relus, every dense
    layer but a last one followed by a Relu with a width) the accepted output is
    the integer inference, up to padding with zeros. *)
Theorem C74_perceptron_partial : forall p m pf input x o,
  prime p -> 2 ^ 200 < p -> m_alpha m = 2 ^ Z.of_nat (m_exponent m) ->
  verify p m pf input = true -> NoDup (map l_name (m_layers m)) -> m_inputs m = [x] -> m_outputs m = [o] ->
  chained x (m_layers m) o -> relu_guarded (m_layers m) -> (forall l, In l (m_layers m) -> weights_ok l) ->
  (forall v, In v input -> i64 v) -> (forall v, In v (pf_expected pf) -> i64 v) ->
  exists ys, infer (m_alpha m) (m_layers m) input = Some ys /\
    pad_to_size (pf_expected pf) (pow2_for (List.length (pf_expected pf))) = pad_to_size ys (pow2_for (List.length ys)).
Proof. exact mlp_sound. Qed.
Print Assumptions C74_perceptron_partial.

Example C74_perceptron_met :
  prime bn254_r /\ 2 ^ 200 < bn254_r /\ verify bn254_r mlp_model mlp_proof [5; -3] = true /\
  NoDup (map l_name (m_layers mlp_model)) /\ chained "x" (m_layers mlp_model) "z" /\ relu_guarded (m_layers mlp_model) /\
  (forall l, In l (m_layers mlp_model) -> weights_ok l) /\ infer 16 (m_layers mlp_model) [5; -3] = Some [21] /\ pf_expected mlp_proof = [21].
Proof. exact mlp_met. Qed.

(** ** C76: the layers of an accepted proof *)

(** The first tensor is the public input, the last one the claimed output. *)
Theorem C76_input : forall p m pf input x, verify p m pf input = true -> m_inputs m = [x] ->
  tensor_value m pf input 0 x = Some (pad_to_size input (pow2_for (List.length input))).
Proof. exact input_value. Qed.
Print Assumptions C76_input.

Theorem C76_output : forall p m pf input o, verify p m pf input = true -> m_outputs m = [o] ->
  exists ys, tensor_value m pf input (List.length (m_layers m)) o = Some ys /\
    List.length ys = pow2_for (List.length (pf_expected pf)) /\
    forall i, (i < List.length ys)%nat -> (entry ys i - entry (pf_expected pf) i) mod p = 0.
Proof. exact output_value. Qed.
Print Assumptions C76_output.

Theorem C76_relu : forall p m pf input k l x o, prime p -> 2 ^ 20 < p ->
  verify p m pf input = true -> layer_at m k l -> l_op l = Relu -> width_set pf l ->
  nth_error (l_inputs l) 0 = Some x -> In o (l_outputs l) ->
  exists xs ys, tensor_value m pf input k x = Some xs /\ tensor_value m pf input (S k) o = Some ys /\
    List.length ys = List.length xs /\
    forall i, (i < List.length xs)%nat ->
      signed p (entry ys i) = relu (signed p (entry xs i)) /\ Z.abs (signed p (entry xs i)) < 2 ^ 18.
Proof. exact relu_sound. Qed.
Print Assumptions C76_relu.

Theorem C76_maxpool : forall p m pf input k l x o lay, prime p -> 2 ^ 20 < p ->
  verify p m pf input = true -> layer_at m k l -> l_op l = MaxPool -> width_set pf l ->
  nth_error (l_inputs l) 0 = Some x -> In o (l_outputs l) -> tensor_layout m pf input k x = Some lay ->
  exists ph pw xs ys, l_kernel l = Some [ph; pw] /\
    let oh := windows (height lay) ph (stride l 0) in
    let ow := windows (width lay) pw (stride l 1) in
    tensor_value m pf input k x = Some xs /\ tensor_value m pf input (S k) o = Some ys /\
    tensor_layout m pf input (S k) o = Some (HWC oh ow (channels lay) (channels lay)) /\
    List.length ys = pow2_for (oh * ow * channels lay) /\
    forall c i j, (c < channels lay)%nat -> (i < oh)%nat -> (j < ow)%nat ->
      let window := window_values p lay xs ph pw c (i * stride l 0) (j * stride l 1) in
      (forall v, In v window -> 4 * Z.abs v < p) -> is_max window (signed p (entry ys ((i * ow + j) * channels lay + c))).
Proof. exact maxpool_sound. Qed.
Print Assumptions C76_maxpool.

Theorem C76_add_sub : forall p m pf input k l a c o (add : bool), 0 < p ->
  verify p m pf input = true -> layer_at m k l -> l_op l = (if add then Add else Sub) ->
  nth_error (l_inputs l) 0 = Some a -> nth_error (l_inputs l) 1 = Some c -> a <> "result"%string -> c <> "result"%string -> In o (l_outputs l) ->
  exists xs zs ys, operand_value m pf input k l a xs /\ operand_value m pf input k l c zs /\
    tensor_value m pf input (S k) o = Some ys /\
    List.length xs = List.length ys /\ List.length zs = List.length ys /\
    forall i, (i < List.length ys)%nat ->
      signed p (entry ys i) = signed p (if add then entry xs i + entry zs i else entry xs i - entry zs i).
Proof. exact addsub_sound. Qed.
Print Assumptions C76_add_sub.

Theorem C76_cast_reshape : forall p m pf input k l x o, verify p m pf input = true -> layer_at m k l ->
  l_op l = Cast \/ l_op l = Reshape -> nth_error (l_inputs l) 0 = Some x -> In o (l_outputs l) ->
  tensor_value m pf input (S k) o = tensor_value m pf input k x.
Proof. exact alias_sound. Qed.
Print Assumptions C76_cast_reshape.

(** Dense, convolution and normalisation layers: the rescaled output is right up
    to a remainder within the width; that it is the rounded quotient needs a
    bound on the output, which the circuit does not impose (C74). *)
Theorem C76_dense_partial : forall p m pf input k l x wn rows cols rest data o, 0 < p ->
  verify p m pf input = true -> layer_at m k l -> l_op l = Gemm ->
  nth_error (l_inputs l) 0 = Some x -> nth_error (l_inputs l) 1 = Some wn -> hget (l_weights l) wn = Some (rows :: cols :: rest, data) ->
  In o (l_outputs l) ->
  let '(K, N) := dense_dims (l_transB l) rows cols in
  (m_exponent m <= 18)%nat /\ (rows * cols <= List.length data)%nat /\
  exists xs ys, tensor_value m pf input k x = Some xs /\ tensor_value m pf input (S k) o = Some ys /\
    List.length xs = pow2_for K /\ List.length ys = pow2_for N /\
    forall j, (j < List.length ys)%nat -> exists r, in_width (m_exponent m) r /\
      (m_alpha m * entry ys j + r -
       ((if (j <? N)%nat then dense_sum (dense_weight (l_transB l) cols data) K xs j else 0) + entry (bias_vector l) j)) mod p = 0.
Proof. exact gemm_sound. Qed.
Print Assumptions C76_dense_partial.

Theorem C76_conv_partial : forall p m pf input k l x wn cout cin kh kw rest data o lay, 0 < p ->
  verify p m pf input = true -> layer_at m k l -> l_op l = Conv ->
  nth_error (l_inputs l) 0 = Some x -> nth_error (l_inputs l) 1 = Some wn ->
  hget (l_weights l) wn = Some (cout :: cin :: kh :: kw :: rest, data) ->
  In o (l_outputs l) -> tensor_layout m pf input k x = Some lay ->
  let oh := windows (pad_begin l 0 + height lay + pad_end l 0) kh (stride l 0) in
  let ow := windows (pad_begin l 1 + width lay + pad_end l 1) kw (stride l 1) in
  let out := HWC oh ow cout (pow2_for cout) in
  (m_exponent m <= 18)%nat /\ channels lay = cin /\ (cout * (cin * kh * kw) <= List.length data)%nat /\
  tensor_layout m pf input (S k) o = Some out /\
  exists xs ys, tensor_value m pf input k x = Some xs /\ tensor_value m pf input (S k) o = Some ys /\
    List.length ys = (pow2_for (oh * ow) * pow2_for cout)%nat /\
    forall co i j, (co < cout)%nat -> (i < oh)%nat -> (j < ow)%nat -> exists r, in_width (m_exponent m) r /\
      (m_alpha m * entry ys (position out co i j) + r -
       (conv_sum lay xs data cin kh kw (pad_begin l 0) (pad_begin l 1) co (i * stride l 0) (j * stride l 1) +
        entry (bias_vector l) co)) mod p = 0.
Proof. exact conv_sound. Qed.
Print Assumptions C76_conv_partial.

Theorem C76_batchnorm_partial : forall p m pf input k l x mn an ms mv ads av o lay, 0 < p ->
  verify p m pf input = true -> layer_at m k l -> l_op l = BatchNorm ->
  (forall l', In l' (firstn k (m_layers m)) -> layout_safe (l_op l')) ->
  nth_error (l_inputs l) 0 = Some x -> nth_error (l_inputs l) 1 = Some mn -> nth_error (l_inputs l) 2 = Some an ->
  hget (l_weights l) mn = Some (ms, mv) -> hget (l_weights l) an = Some (ads, av) ->
  In o (l_outputs l) -> tensor_layout m pf input k x = Some lay ->
  (match lay with CHW _ _ _ => True | HWC _ _ _ st => (List.length mv <= st)%nat end) ->
  (m_exponent m <= 18)%nat /\ tensor_layout m pf input (S k) o = Some lay /\
  exists xs ys, tensor_value m pf input k x = Some xs /\ tensor_value m pf input (S k) o = Some ys /\
    List.length ys = List.length xs /\
    forall c h w, (c < List.length mv)%nat -> (h < height lay)%nat -> (w < width lay)%nat ->
      let i := position lay c h w in (i < List.length ys)%nat ->
      exists r, in_width (m_exponent m) r /\
        (m_alpha m * entry ys i + r - (entry xs i * entry mv c + entry av c)) mod p = 0.
Proof. exact batchnorm_sound. Qed.
Print Assumptions C76_batchnorm_partial.

(** Accepted proofs of one layer of every kind meet the hypotheses. *)
Example C76_met :
  verify bn254_r conv_model conv_proof [1; 2; 3; 4] = true /\ tensor_layout conv_model conv_proof [1; 2; 3; 4] 0 "x" = Some (CHW 1 2 2) /\
  layer_at conv_model 0 conv_layer /\
  verify bn254_r pool_model pool_proof [1; 2; 3; 4] = true /\ layer_at pool_model 0 pool_layer /\ width_set pool_proof pool_layer /\
  verify bn254_r norm_model norm_proof [1; 2; 3; 4] = true /\ layer_at norm_model 0 norm_layer /\
  verify bn254_r add_model add_proof [1; 2; 3; 4] = true /\ layer_at add_model 0 add_layer.
Proof. exact layers_met. Qed.
(** ... and a wrong output of each is rejected. *)
Example C76_rejected :
  verify bn254_r conv_model conv_proof [1; 2; 3; 5] = false /\ verify bn254_r pool_model pool_proof [1; 2; 3; 5] = false /\
  verify bn254_r norm_model norm_proof [1; 2; 3; 5] = false /\ verify bn254_r add_model add_proof [1; 2; 3; 5] = false.
Proof. exact layers_rejected. Qed.
