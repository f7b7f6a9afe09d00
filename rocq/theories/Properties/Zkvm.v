(** The proof of compilation, C122-C127 *)
From Coq Require Import List ZArith Bool String Reals.
From Verif Require Import Base.Array Base.Machine Spec.Zkvm Model.Zkvm.
From Verif Require Spec.Tensors Spec.RealOps Spec.Io Model.Io Model.Bounds Proofs.Zkvm Proofs.ZkvmMain Proofs.ZkvmFile Proofs.ZkvmWidths Proofs.Bounds8.
Import ListNotations.
Local Open Scope string_scope.
Local Open Scope list_scope.
Local Open Scope Z_scope.

(** C122.  The guest decodes exactly the canonical model that the host encoded, and its answer is
    the hash of that model and of the widths computed from it; what follows the encoding does not matter. *)
Theorem C122_guest_reads_what_host_wrote sha256 m rest : canonical_ok m ->
  decode (encode m ++ rest) = Some m /\
  verify_compilation sha256 (encode m ++ rest) = match guest_n_bits m with Some nb => Some (sha256 (canonical_output m nb)) | None => None end.
Proof. exact (ZkvmMain.compile_written sha256 m rest). Qed.
Print Assumptions C122_guest_reads_what_host_wrote.
(** Different canonical models have different encodings. *)
Theorem C122_encoding_injective m1 m2 : canonical_ok m1 -> canonical_ok m2 -> encode m1 = encode m2 -> m1 = m2.
Proof. exact (ZkvmMain.encode_inj m1 m2). Qed.
Print Assumptions C122_encoding_injective.
Example C122_case : canonical_ok (ZkvmMain.one 2 18 (2 ^ 18) (ZkvmMain.bare 5 [7; -3])).
Proof. exact ZkvmMain.one_case. Qed.

(** C123.  The answer binds the canonical model: two runs of the guest with the same answer decoded
    the same model, unless their two outputs are a collision of the hash. *)
Theorem C123_hash_binds_model sha256 s1 s2 h : Forall is_byte s1 -> Forall is_byte s2 ->
  verify_compilation sha256 s1 = Some h -> verify_compilation sha256 s2 = Some h ->
  exists m1 n1 m2 n2, decode s1 = Some m1 /\ decode s2 = Some m2 /\ guest_n_bits m1 = Some n1 /\ guest_n_bits m2 = Some n2 /\
    (m1 = m2 \/ canonical_output m1 n1 <> canonical_output m2 n2 /\ sha256 (canonical_output m1 n1) = sha256 (canonical_output m2 n2)).
Proof. exact (Zkvm.hash_binds sha256 s1 s2 h). Qed.
Print Assumptions C123_hash_binds_model.
Example C123_case : exists s h, Forall is_byte s /\ verify_compilation (fun x => x) s = Some h.
Proof. exact ZkvmMain.hash_case. Qed.

(** C124.  Equal hashes mean equal quantised models: false.  The order of the operands is lost: *)
Theorem C124_operand_order_refuted : exists m1 m2 n1 n2 c, from_quantized m1 = Some c /\ from_quantized m2 = Some c /\ nodes m1 = [n1] /\ nodes m2 = [n2] /\
  input_names m1 = input_names m2 /\ output_names m1 = output_names m2 /\
  exists env, RealOps.entry env (over_reals n1) 0 1%R /\ ~ RealOps.entry env (over_reals n2) 0 1%R.
Proof. exact ZkvmMain.operands. Qed.
Print Assumptions C124_operand_order_refuted.
(** the names of the attributes are lost: *)
Theorem C124_attribute_names_refuted : exists m1 m2 c, from_quantized m1 = Some c /\ from_quantized m2 = Some c /\
  map attributes (nodes m1) = [[("transA", AInt 1)]] /\ map attributes (nodes m2) = [[("transB", AInt 1)]] /\
  map op (nodes m1) = [RealOps.Gemm] /\ map op (nodes m2) = [RealOps.Gemm].
Proof. exact ZkvmMain.attribute_names. Qed.
Print Assumptions C124_attribute_names_refuted.
(** and so are, for every model, the widths of the range checks that the circuit is built with. *)
Theorem C124_widths_refuted : (forall m1 m2, same_but_widths m1 m2 -> from_quantized m1 = from_quantized m2) /\
  exists m1 m2 c, same_but_widths m1 m2 /\ n_bits_config m1 <> n_bits_config m2 /\ map n_bits (nodes m1) <> map n_bits (nodes m2) /\ from_quantized m1 = Some c.
Proof. exact (conj Zkvm.widths_forgotten ZkvmMain.widths_example). Qed.
Print Assumptions C124_widths_refuted.
(** What the canonical model does determine: scale, and in execution order every operator, its
    rescaling, its number of operands and the constants it reads as second and third operand. *)
Theorem C124_binds_partial m1 m2 c : from_quantized m1 = Some c -> from_quantized m2 = Some c ->
  m_base m1 = m_base m2 /\ m_exponent m1 = m_exponent m2 /\
  forall i a j, nth_error (topo_order m1) i = Some j -> nth_error (nodes m1) j = Some a ->
    exists k b, nth_error (topo_order m2) i = Some k /\ nth_error (nodes m2) k = Some b /\ alike a b.
Proof. exact (Zkvm.kept m1 m2 c). Qed.
Print Assumptions C124_binds_partial.
Example C124_case : exists c, from_quantized ZkvmWidths.quantised = Some c.
Proof. exact ZkvmMain.quantised_case. Qed.

(** C125.  The widths in the hashed output are those the quantizer chose: false. *)
Theorem C125_same_widths_refuted :
  (exists bounds, Bounds.compute_bounds (2 ^ 18) (fun _ => None) ["x"] [Bounds8.gemm32; ZkvmWidths.relu_after] = Some (bounds, [("r", 24%nat); ("g", 24%nat)])) /\
  exists c, from_quantized ZkvmWidths.quantised = Some c /\ guest_n_bits c = Some [24; 19].
Proof. exact ZkvmWidths.guest_narrow. Qed.
Print Assumptions C125_same_widths_refuted.
(** The two formulas from a bound to a width agree on every integer bound. *)
Theorem C125_formula_partial b : 0 <= b -> compute_n_bits_int b = Z.of_nat (Bounds.compute_n_bits 1 (IZR b)).
Proof. exact (ZkvmWidths.n_bits_int b). Qed.
Print Assumptions C125_formula_partial.
(** They agree on a convolution of the model's input without bias, if the quantised weights are
    exact and no channel's sum reaches 2^64. *)
Theorem C125_first_conv_partial (al : Z) l w weights (d : desc) :
  (0 < al < 2 ^ 64)%Z -> RealOps.kind (Bounds.body l) = RealOps.Conv -> Bounds.weight_at l 1 = Some w -> Bounds.weight_at l 2 = None ->
  RealOps.inputs (Bounds.body l) <> [] ->
  (4 <= List.length (Tensors.dims w))%nat -> Tensors.flat w = map (fun z => IZR z / IZR al)%R weights -> weights <> [] ->
  nth 0 (Tensors.dims w) 0%nat <> 0%nat -> (List.length weights mod nth 0 (Tensors.dims w) 0 = 0)%nat ->
  (forall oc, fold_left Z.add (map Z.abs (ZkvmWidths.chan (nth 0 (Tensors.dims w) 0%nat) weights oc)) 0 < 2 ^ 64) ->
  op_type d = 5 -> weight_dims d = map Z.of_nat (Tensors.dims w) -> weight_data d = weights -> bias_data d = [] ->
  exists bound, Bounds.compute_layer_bound l (map (fun s => (s, 1%R)) (RealOps.inputs (Bounds.body l))) (IZR al) = Some bound /\
    guest_layer al d al = Some (Z.of_nat (Bounds.compute_n_bits (IZR al) bound), al).
Proof. exact (ZkvmWidths.first_conv al l w weights d). Qed.
Print Assumptions C125_first_conv_partial.
Example C125_case : RealOps.kind (Bounds.body ZkvmMain.conv_layer) = RealOps.Conv /\ Bounds.weight_at ZkvmMain.conv_layer 1 = Some ZkvmMain.conv_w /\
  Bounds.weight_at ZkvmMain.conv_layer 2 = None /\
  RealOps.inputs (Bounds.body ZkvmMain.conv_layer) <> [] /\ (4 <= List.length (Tensors.dims ZkvmMain.conv_w))%nat /\
  Tensors.flat ZkvmMain.conv_w = map (fun z => IZR z / IZR (2 ^ 18))%R [3; -500000] /\
  (forall oc, fold_left Z.add (map Z.abs (ZkvmWidths.chan 2 [3; -500000] oc)) 0 < 2 ^ 64) /\
  weight_dims ZkvmMain.conv_desc = map Z.of_nat (Tensors.dims ZkvmMain.conv_w) /\ guest_layer (2 ^ 18) ZkvmMain.conv_desc (2 ^ 18) = Some (20, 2 ^ 18).
Proof. exact ZkvmMain.conv_case. Qed.

(** C126.  The guest answers for every genuine canonical model and for no other: false.  It
    aborts when the scale is zero, which a model with base 0 has: *)
Theorem C126_zero_scale_refuted : exists m, canonical_ok m /\ base m ^ exponent m = alpha m /\ forall sha256, verify_compilation sha256 (encode m) = None.
Proof. exact ZkvmMain.zero_scale. Qed.
Print Assumptions C126_zero_scale_refuted.
(** it accepts a scale that is not the base to the exponent: *)
Theorem C126_foreign_scale_refuted : exists m, canonical_ok m /\ base m ^ exponent m <> alpha m /\ forall sha256, verify_compilation sha256 (encode m) <> None.
Proof. exact ZkvmMain.foreign_scale. Qed.
Print Assumptions C126_foreign_scale_refuted.
(** and the sum of the weights of a channel wraps around. *)
Theorem C126_sum_wraps_refuted : exists m, canonical_ok m /\ base m ^ exponent m = alpha m /\ guest_n_bits m = Some [2] /\
  exists l, layers m = [l] /\ op_type l = 5 /\ fold_left Z.add (map Z.abs (weight_data l)) 0 = 2 ^ 64.
Proof. exact ZkvmMain.wraps. Qed.
Print Assumptions C126_sum_wraps_refuted.
(** It answers for every other encoded model: it fails only for a zero scale together with a
    Gemm, Conv or BatchNormalization layer (codes 4, 5, 8). *)
Theorem C126_answers_partial sha256 m rest : canonical_ok m ->
  (verify_compilation sha256 (encode m ++ rest) = None <-> alpha m = 0 /\ exists l, In l (layers m) /\ In (op_type l) [4; 5; 8]).
Proof. exact (ZkvmMain.compile_fails sha256 m rest). Qed.
Print Assumptions C126_answers_partial.

(** C127.  Reading the model file: what the writer stored, compressed or not, is read back, *)
Theorem C127_written_partial (z : Io.zstd) (v : list Z) (c : bool) (rest : list Z) : Spec.Io.zstd_ok z ->
  Forall is_byte (if c then Io.zenc z v else v) -> Z.of_nat (List.length (if c then Io.zenc z v else v)) + 20 < 2 ^ 64 ->
  decompress_model_bytes z (Io.write_envelope (if c then Io.zenc z v else v) c ++ rest) = Read v.
Proof. exact (ZkvmFile.read_written z v c rest). Qed.
Print Assumptions C127_written_partial.
(** and so are the two older formats. *)
Theorem C127_older_formats_partial (z : Io.zstd) (v : list Z) : Spec.Io.zstd_ok z ->
  decompress_model_bytes z (Io.zenc z v) = Read v /\
  (firstn 4 v <> Io.ENVELOPE_MAGIC -> firstn 4 v <> Io.ZSTD_MAGIC -> decompress_model_bytes z v = Read v).
Proof. exact (fun H => conj (ZkvmFile.read_legacy z v H) (ZkvmFile.read_raw z v)). Qed.
Print Assumptions C127_older_formats_partial.
(** Corruption is not noticed: any payload of the same length is accepted under the old checksum, *)
Theorem C127_checksum_refuted (z : Io.zstd) payload other : Forall is_byte payload -> Z.of_nat (List.length payload) + 20 < 2 ^ 64 ->
  List.length other = List.length payload ->
  decompress_model_bytes z (firstn 20 (Io.write_envelope payload false) ++ other) = Read other.
Proof. exact (ZkvmFile.unchecked z payload other). Qed.
Print Assumptions C127_checksum_refuted.
(** and a length near 2^64 makes the reader panic, whatever follows. *)
Theorem C127_length_refuted (z : Io.zstd) payload flags : Forall is_byte payload -> (20 <= List.length payload)%nat ->
  decompress_model_bytes z (Io.ENVELOPE_MAGIC ++ le_bytes 4 flags ++ le_bytes 8 (2 ^ 64 - 20) ++ payload) = Panicked.
Proof. exact (ZkvmFile.panics z payload flags). Qed.
Print Assumptions C127_length_refuted.
