(** Honest provers of the Remainder backend (C75, C77). *)
From Coq Require Import ZArith Znumtheory List Bool Lia String.
From Verif Require Import Base.Array Base.Machine Base.Pocklington Spec.Numbers Spec.Remainder Spec.RemainderCircuit Spec.RemainderHonest
  Model.Remainder Model.RemainderWitness.
From Verif Require Import Proofs.RemainderWitnesses Proofs.RemainderHonestExact Proofs.RemainderHonestWitnesses.
Import ListNotations.
Local Open Scope string_scope.
Local Open Scope Z_scope.

(** ** C75: a proof made by the prover is accepted *)

(** The claim is false.  A pooling after a reshape: the witness generator and the
    circuit builder disagree on the image's layout, and the proof made from the
    witness is not accepted. *)
Theorem C75_reshape_refuted : exists m input w pf,
  NoDup (map l_name (m_layers m)) /\ dense_sizes_agree m input /\ operand_sizes_agree m input /\ (forall v, In v input -> i64 v) /\
  compute_witness m input = Some w /\ generate_proof m w = Some pf /\ verify bn254_r m pf input = false.
Proof. exact reshape_rejected. Qed.
Print Assumptions C75_reshape_refuted.

(** Five feature maps of three pixels, flattened and given to a dense layer: the
    padded sizes differ. *)
Theorem C75_flatten_refuted : exists m input w pf,
  NoDup (map l_name (m_layers m)) /\ images_first m /\ operand_sizes_agree m input /\ (forall v, In v input -> i64 v) /\
  compute_witness m input = Some w /\ generate_proof m w = Some pf /\ verify bn254_r m pf input = false.
Proof. exact wide_rejected. Qed.
Print Assumptions C75_flatten_refuted.

(** A constant operand named [result]. *)
Theorem C75_result_refuted : exists m input w pf,
  NoDup (map l_name (m_layers m)) /\ images_first m /\ dense_sizes_agree m input /\ (forall v, In v input -> i64 v) /\
  compute_witness m input = Some w /\ generate_proof m w = Some pf /\ verify bn254_r m pf input = false.
Proof. exact result_rejected. Qed.
Print Assumptions C75_result_refuted.

(** What holds: these three are the only obstacles.  For every other model of the
    modelled operations, every input and every field, the proof is accepted. *)
Theorem C75_accepted_partial : forall p m input pf,
  provable m input -> honest_proof m input pf -> verify p m pf input = true.
Proof. exact accepted_honest. Qed.
Print Assumptions C75_accepted_partial.

(** A convolution, a Relu, a pooling, a flattening and a dense layer. *)
Example C75_accepted_met : exists pf, provable cnn_model grid /\ honest_proof cnn_model grid pf /\ pf_expected pf = [144] /\
  tensor_layout cnn_model pf grid 0 "x" = Some (CHW 1 4 4) /\ tensor_layout cnn_model pf grid 2 "g" = Some (HWC 3 3 1 1).
Proof. exact cnn_met. Qed.
Example C75_layers_run :
  (exists w pf, compute_witness conv_model [1; 2; 3; 4] = Some w /\ generate_proof conv_model w = Some pf /\ pf_expected pf = [11; 30]) /\
  (exists w pf, compute_witness pool_model [1; 2; 3; 4] = Some w /\ generate_proof pool_model w = Some pf /\ pf_expected pf = [4]) /\
  (exists w pf, compute_witness norm_model [1; 2; 3; 4] = Some w /\ generate_proof norm_model w = Some pf /\ pf_expected pf = [2; 4; 6; 8]) /\
  (exists w pf, compute_witness add_model [1; 2; 3; 4] = Some w /\ generate_proof add_model w = Some pf /\ pf_expected pf = [11; 22; 33; 44]).
Proof. exact layers_run. Qed.

(** ** C77: the prover states the quantised inference *)

(** The claim is false of two feature maps, flattened and given to a dense layer:
    the feature maps are interleaved, the dense layer's weights are not.  The
    inference is 2, the accepted proof says 10. *)
Theorem C77_refuted : exists m conv reshape dense_l kernel input pf,
  m_layers m = [conv; reshape; dense_l] /\ l_op conv = Conv /\ l_op reshape = Reshape /\ l_op dense_l = Gemm /\
  hget (l_weights conv) "cw" = Some ([2; 1; 1; 1]%nat, kernel) /\
  provable m input /\ honest_proof m input pf /\ verify bn254_r m pf input = true /\
  dense (m_alpha m) dense_l (feature_maps (m_alpha m) conv (CHW 1 1 2) input kernel 2 1 1 1) = Some [2] /\ pf_expected pf = [10].
Proof. exact flat_disagrees. Qed.
Print Assumptions C77_refuted.

(** What holds: perceptrons. *)
Theorem C77_perceptron_partial : forall m input pf x o,
  provable m input -> honest_proof m input pf -> m_alpha m = 2 ^ Z.of_nat (m_exponent m) ->
  m_inputs m = [x] -> m_outputs m = [o] -> chained x (m_layers m) o ->
  (forall l, In l (m_layers m) -> (l_op l = Gemm \/ l_op l = Relu) /\ weights_ok l) ->
  exists ys, infer (m_alpha m) (m_layers m) input = Some ys /\ pf_expected pf = pad_to_size ys (pow2_for (List.length ys)).
Proof. exact perceptron_exact. Qed.
Print Assumptions C77_perceptron_partial.

Example C77_perceptron_met : exists pf, provable deep_model [5; -3] /\ honest_proof deep_model [5; -3] pf /\
  m_alpha deep_model = 2 ^ Z.of_nat (m_exponent deep_model) /\
  chained "x" (m_layers deep_model) "z" /\ (forall l, In l (m_layers deep_model) -> (l_op l = Gemm \/ l_op l = Relu) /\ weights_ok l) /\
  infer 16 (m_layers deep_model) [5; -3] = Some [28].
Proof. exact deep_met. Qed.

(** A flattening of one feature map. *)
Theorem C77_flatten_partial : forall m input pf, provable m input -> honest_proof m input pf -> m_alpha m = 2 ^ Z.of_nat (m_exponent m) ->
  forall k l l' x y z wn cin kh kw rest data lay, nth_error (m_layers m) k = Some l -> l_op l = Conv ->
  nth_error (l_inputs l) 0 = Some x -> nth_error (l_inputs l) 1 = Some wn -> hget (l_weights l) wn = Some (1%nat :: cin :: kh :: kw :: rest, data) ->
  In y (l_outputs l) -> tensor_layout m pf input k x = Some lay ->
  nth_error (m_layers m) (S k) = Some l' -> l_op l' = Reshape -> nth_error (l_inputs l') 0 = Some y -> In z (l_outputs l') ->
  exists xs zs, computed m input k x = Some xs /\ computed m input (S (S k)) z = Some zs /\
    let maps := feature_maps (m_alpha m) l lay xs data 1 cin kh kw in firstn (List.length maps) zs = maps.
Proof. exact flatten_exact. Qed.
Print Assumptions C77_flatten_partial.

(** Every layer by itself computes what it should: from the input to the output,
    for every model the prover handles. *)
Theorem C77_ends : forall m input pf, provable m input -> honest_proof m input pf ->
  (forall x, m_inputs m = [x] -> computed m input 0 x = Some (pad_to_size input (pow2_for (List.length input)))) /\
  (forall o, m_outputs m = [o] -> computed m input (List.length (m_layers m)) o = Some (pf_expected pf)).
Proof. intros m input pf P H. exact (conj (fun x => input_exact m input pf P H x) (fun o => honest_output m input pf o P H)). Qed.
Print Assumptions C77_ends.

Theorem C77_dense : forall m input pf, provable m input -> honest_proof m input pf -> m_alpha m = 2 ^ Z.of_nat (m_exponent m) ->
  forall k l x wn rows cols rest data o, nth_error (m_layers m) k = Some l -> l_op l = Gemm ->
  nth_error (l_inputs l) 0 = Some x -> nth_error (l_inputs l) 1 = Some wn -> hget (l_weights l) wn = Some (rows :: cols :: rest, data) -> In o (l_outputs l) ->
  let '(K, N) := dense_dims (l_transB l) rows cols in
  exists xs ys, computed m input k x = Some xs /\ computed m input (S k) o = Some ys /\ List.length xs = pow2_for K /\ List.length ys = pow2_for N /\
    forall j, (j < List.length ys)%nat ->
      entry ys j = ((if (j <? N)%nat then dense_sum (dense_weight (l_transB l) cols data) K xs j else 0) + entry (bias_vector l) j) / m_alpha m.
Proof. exact dense_exact. Qed.
Print Assumptions C77_dense.

Theorem C77_conv : forall m input pf, provable m input -> honest_proof m input pf -> m_alpha m = 2 ^ Z.of_nat (m_exponent m) ->
  forall k l x wn cout cin kh kw rest data o lay, nth_error (m_layers m) k = Some l -> l_op l = Conv ->
  nth_error (l_inputs l) 0 = Some x -> nth_error (l_inputs l) 1 = Some wn ->
  hget (l_weights l) wn = Some (cout :: cin :: kh :: kw :: rest, data) ->
  In o (l_outputs l) -> tensor_layout m pf input k x = Some lay ->
  let oh := windows (pad_begin l 0 + height lay + pad_end l 0) kh (stride l 0) in
  let ow := windows (pad_begin l 1 + width lay + pad_end l 1) kw (stride l 1) in
  let out := HWC oh ow cout (pow2_for cout) in
  channels lay = cin /\ tensor_layout m pf input (S k) o = Some out /\
  exists xs ys, computed m input k x = Some xs /\ computed m input (S k) o = Some ys /\
    List.length ys = (pow2_for (oh * ow) * pow2_for cout)%nat /\
    forall co i j, (co < cout)%nat -> (i < oh)%nat -> (j < ow)%nat ->
      entry ys (position out co i j) =
      (conv_sum lay xs data cin kh kw (pad_begin l 0) (pad_begin l 1) co (i * stride l 0) (j * stride l 1) + entry (bias_vector l) co) / m_alpha m.
Proof. exact conv_exact. Qed.
Print Assumptions C77_conv.

Theorem C77_batchnorm : forall m input pf, provable m input -> honest_proof m input pf -> m_alpha m = 2 ^ Z.of_nat (m_exponent m) ->
  forall k l x mn an ms mv ads av o lay, nth_error (m_layers m) k = Some l -> l_op l = BatchNorm ->
  nth_error (l_inputs l) 0 = Some x -> nth_error (l_inputs l) 1 = Some mn -> nth_error (l_inputs l) 2 = Some an ->
  hget (l_weights l) mn = Some (ms, mv) -> hget (l_weights l) an = Some (ads, av) ->
  In o (l_outputs l) -> tensor_layout m pf input k x = Some lay ->
  (match lay with CHW _ _ _ => True | HWC _ _ _ st => (List.length mv <= st)%nat end) ->
  tensor_layout m pf input (S k) o = Some lay /\
  exists xs ys, computed m input k x = Some xs /\ computed m input (S k) o = Some ys /\ List.length ys = List.length xs /\
    forall c h w, (c < List.length mv)%nat -> (h < height lay)%nat -> (w < width lay)%nat ->
      let i := position lay c h w in (i < List.length ys)%nat -> entry ys i = (entry xs i * entry mv c + entry av c) / m_alpha m.
Proof. exact batchnorm_exact. Qed.
Print Assumptions C77_batchnorm.

Theorem C77_relu : forall m input pf, provable m input -> honest_proof m input pf ->
  forall k l x o, nth_error (m_layers m) k = Some l -> l_op l = Relu -> nth_error (l_inputs l) 0 = Some x -> In o (l_outputs l) ->
  exists xs, computed m input k x = Some xs /\ computed m input (S k) o = Some (map relu xs).
Proof. exact relu_exact. Qed.
Print Assumptions C77_relu.

Theorem C77_maxpool : forall m input pf, provable m input -> honest_proof m input pf ->
  forall k l x o lay, nth_error (m_layers m) k = Some l -> l_op l = MaxPool ->
  nth_error (l_inputs l) 0 = Some x -> In o (l_outputs l) -> tensor_layout m pf input k x = Some lay ->
  exists ph pw xs ys, l_kernel l = Some [ph; pw] /\
    let oh := windows (height lay) ph (stride l 0) in
    let ow := windows (width lay) pw (stride l 1) in
    computed m input k x = Some xs /\ computed m input (S k) o = Some ys /\
    tensor_layout m pf input (S k) o = Some (HWC oh ow (channels lay) (channels lay)) /\
    List.length ys = pow2_for (oh * ow * channels lay) /\
    forall c i j, (c < channels lay)%nat -> (i < oh)%nat -> (j < ow)%nat ->
      is_max (window lay xs ph pw c (i * stride l 0) (j * stride l 1)) (entry ys ((i * ow + j) * channels lay + c)).
Proof. exact maxpool_exact. Qed.
Print Assumptions C77_maxpool.

Theorem C77_add_sub : forall m input pf, provable m input -> honest_proof m input pf ->
  forall k l a c o (add : bool), nth_error (m_layers m) k = Some l -> l_op l = (if add then Add else Sub) ->
  nth_error (l_inputs l) 0 = Some a -> nth_error (l_inputs l) 1 = Some c -> In o (l_outputs l) ->
  exists xs zs ys, operand m input k l a = Some xs /\ operand m input k l c = Some zs /\ computed m input (S k) o = Some ys /\
    List.length ys = pow2_for (List.length xs) /\ List.length ys = pow2_for (List.length zs) /\
    forall i, (i < List.length ys)%nat -> entry ys i = if add then entry xs i + entry zs i else entry xs i - entry zs i.
Proof. exact addsub_exact. Qed.
Print Assumptions C77_add_sub.

Theorem C77_cast_reshape : forall m input pf, provable m input -> honest_proof m input pf ->
  forall k l x o, nth_error (m_layers m) k = Some l -> l_op l = Cast \/ l_op l = Reshape ->
  nth_error (l_inputs l) 0 = Some x -> In o (l_outputs l) -> computed m input (S k) o = computed m input k x.
Proof. exact alias_exact. Qed.
Print Assumptions C77_cast_reshape.
