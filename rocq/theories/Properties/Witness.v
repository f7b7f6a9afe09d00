(** C42, C43, C44, C53: witnesses as files, packed into vectors, and read back by the
    verifying client.  A batch is the list of its witnesses, each with its private and
    its public inputs. *)
From Coq Require Import List ZArith Bool Lia.
From Verif Require Import Base.Array Base.Machine Spec.Serdes Spec.Witness Spec.Extract Model.Fields Model.Serdes Model.Witness Model.Extract.
From Verif Require Proofs.Witness Proofs.Extract.
Import ListNotations.
Local Open Scope list_scope.

Definition scalar_batch {F} (a b : nat) (ws : list (list F * list F)) : witness F :=
  {| w_num := length ws; w_inputs := a; w_publics := b; w_values := Scalar (flat_values ws) |}.

(** C53.  Iterating over a scalar batch gives its witnesses.  Packing a batch into
    vectors and iterating over the result gives the same witnesses in the same order. *)
Theorem C53_packing_keeps_witnesses {F} (zero : F) pack a b (ws : list (list F * list F)) : 0 < pack -> 0 < a + b -> Forall (sized a b) ws ->
  iter_scalar pack (scalar_batch a b ws) = Some ws /\
  exists w', convert_to_simd pack (scalar_batch a b ws) = Some w' /\
    w_num w' = length ws /\ w_inputs w' = a /\ w_publics w' = b /\ iter_scalar pack w' = Some ws.
Proof. exact (Witness.packing_ok zero pack a b ws). Qed.
Print Assumptions C53_packing_keeps_witnesses.

(** The vectors handed to the vectorised evaluator, from a scalar batch and from a packed
    one alike: enough blocks for all witnesses; lane [j] of block [k] is witness
    [k * pack + j], and the last witness fills the lanes that are left. *)
Theorem C53_blocks {F} (zero : F) pack a b (ws : list (list F * list F)) : 0 < pack -> 0 < a + b -> Forall (sized a b) ws ->
  exists blocks w', iter_simd pack (scalar_batch a b ws) = Some blocks /\
    convert_to_simd pack (scalar_batch a b ws) = Some w' /\ iter_simd pack w' = Some blocks /\
    length ws <= length blocks * pack < length ws + pack /\
    forall k xs ys, nth_error blocks k = Some (xs, ys) -> length xs = a /\ length ys = b /\
      interleaved pack (xs ++ ys) (fun j => let w := nth (Nat.min (k * pack + j) (length ws - 1)) ws ([], []) in fst w ++ snd w).
Proof. exact (Witness.blocks_ok zero pack a b ws). Qed.
Print Assumptions C53_blocks.

(** The vectors handed to the prover, whose vector type may have another width: its
    first lanes are the first witnesses, the last one repeated if there are too few. *)
Theorem C53_to_simd {F} (zero : F) pack tpack a b (ws : list (list F * list F)) same : 0 < pack -> 0 < tpack -> 0 < a + b -> Forall (sized a b) ws -> ws <> [] ->
  (same = true -> tpack = pack) ->
  exists xs ys w', convert_to_simd pack (scalar_batch a b ws) = Some w' /\
    to_simd pack same tpack (scalar_batch a b ws) = Some (xs, ys) /\ to_simd pack same tpack w' = Some (xs, ys) /\
    length xs = a /\ length ys = b /\
    interleaved tpack (xs ++ ys) (fun j => let w := nth (Nat.min j (length ws - 1)) ws ([], []) in fst w ++ snd w).
Proof. exact (Witness.to_simd_ok zero pack tpack a b ws same). Qed.
Print Assumptions C53_to_simd.

(** Witnesses without any value cannot be packed: division by zero. *)
Theorem C53_empty_witness_refuted {F} pack (ws : list (list F * list F)) : 0 < pack -> ws <> [] ->
  convert_to_simd pack (scalar_batch 0 0 ws) = None.
Proof. exact (Witness.empty_refuted pack ws). Qed.
Print Assumptions C53_empty_witness_refuted.

Example C53_applies : Forall (sized 2 1) [([1; 2], [3]); ([4; 5], [6]); ([7; 8], [9])] /\
  iter_simd 2 (scalar_batch 2 1 [([1; 2], [3]); ([4; 5], [6]); ([7; 8], [9])]) =
    Some [([[1; 4]; [2; 5]], [[3; 6]]); ([[7; 7]; [8; 8]], [[9; 9]])].
Proof. split; [repeat constructor|reflexivity]. Qed.

(** Witness files: every batch of field elements is written, packed or not, as the same
    bytes; reading them, whatever follows, gives the batch in the form its size asks
    for; truncated files are errors. *)
Theorem C32_witness_file c pack a b ws : format_ok c -> (ff_modulus c < 256 ^ Z.of_nat 32)%Z -> 0 < pack -> 0 < a + b ->
  Forall (sized a b) ws -> Forall (fun w => Forall (field_ok c) (fst w) /\ Forall (field_ok c) (snd w)) ws ->
  (Z.of_nat (length ws * (a + b)) < U64)%Z -> usize_ok (length ws) /\ usize_ok a /\ usize_ok b ->
  exists bytes w', ser_witness c pack (scalar_batch a b ws) = Some bytes /\
    (if use_simd pack (length ws) then convert_to_simd pack (scalar_batch a b ws) else Some (scalar_batch a b ws)) = Some w' /\
    ser_witness c pack w' = Some bytes /\
    (forall rest, de_witness c pack (bytes ++ rest) = Some (w', rest)) /\
    (forall p q, bytes = p ++ q -> q <> [] -> de_witness c pack p = None).
Proof. exact (Witness.witness_file_ok c pack a b ws). Qed.
Print Assumptions C32_witness_file.

(** C44.  The client parses a witness file of [1 + length ws] witnesses of a field with
    8-byte or 32-byte elements (as its modulus says): it gets the modulus and exactly the
    public inputs of the first witness.  A truncated file is rejected exactly when the
    cut is in the header or in the first witness. *)
Theorem C44_public_inputs_partial c pack a b w0 ws bytes p q :
  format_ok c -> (ff_modulus c < 256 ^ Z.of_nat 32)%Z ->
  ff_bytes c = (if (ff_modulus c <? 2 ^ 64)%Z then 8 else 32) ->
  sized a b w0 -> Forall (field_ok c) (fst w0) /\ Forall (field_ok c) (snd w0) ->
  usize_ok (length (w0 :: ws)) /\ usize_ok a /\ usize_ok b -> (Z.of_nat ((a + b) * ff_bytes c) < U64)%Z ->
  ser_witness c pack (scalar_batch a b (w0 :: ws)) = Some bytes -> bytes = p ++ q ->
  parse_public_inputs p = (if length p <? 56 + (a + b) * ff_bytes c then None else Some (ff_modulus c, snd w0)).
Proof. exact (Extract.parse_file c pack a b w0 ws bytes p q). Qed.
Print Assumptions C44_public_inputs_partial.

(** So a file of one witness is parsed when complete and rejected when truncated. *)
Theorem C44_one_witness c pack a b w bytes :
  format_ok c -> (ff_modulus c < 256 ^ Z.of_nat 32)%Z ->
  ff_bytes c = (if (ff_modulus c <? 2 ^ 64)%Z then 8 else 32) ->
  sized a b w -> Forall (field_ok c) (fst w) /\ Forall (field_ok c) (snd w) ->
  usize_ok a /\ usize_ok b -> (Z.of_nat ((a + b) * ff_bytes c) < U64)%Z ->
  ser_witness c pack (scalar_batch a b [w]) = Some bytes ->
  parse_public_inputs bytes = Some (ff_modulus c, snd w) /\
  forall p q, bytes = p ++ q -> q <> [] -> parse_public_inputs p = None.
Proof. exact (Extract.parse_one c pack a b w bytes). Qed.
Print Assumptions C44_one_witness.

(** Files of several witnesses can lose the later ones unnoticed. *)
Theorem C44_later_witnesses_refuted : exists bytes p q,
  ser_witness {| ff_bytes := 8; ff_modulus := GL |} 1 (scalar_batch 0 1 [([], [7]); ([], [8])]%Z) = Some bytes /\
  bytes = p ++ q /\ q <> [] /\ parse_public_inputs p = Some (GL, [7])%Z.
Proof. exact Extract.later_refuted. Qed.
Print Assumptions C44_later_witnesses_refuted.

(** Mersenne-31 elements have 4 bytes, the client reads 8. *)
Theorem C44_m31_refuted : exists bytes,
  ser_witness {| ff_bytes := 4; ff_modulus := M31 |} 1 (scalar_batch 0 2 [([], [7; 8]%Z)]) = Some bytes /\
  parse_public_inputs bytes = None.
Proof. exact Extract.m31_refuted. Qed.
Print Assumptions C44_m31_refuted.

(** A witness whose public inputs are the encoded model inputs, the encoded model
    outputs and the two scale parameters: the client extracts exactly those integers. *)
Theorem C44_extracted_outputs c pack priv ins outs base e ws bytes rest :
  let p := ff_modulus c in
  let publics := map (convert_val p) ins ++ map (convert_val p) outs ++ [base; e] in
  format_ok c -> (p < 256 ^ Z.of_nat 32)%Z -> ff_bytes c = (if (p <? 2 ^ 64)%Z then 8 else 32) ->
  Forall (representable p) ins -> Forall (representable p) outs ->
  (0 <= base < Z.min p U64)%Z -> (0 <= e < Z.min p U64)%Z -> Forall (field_ok c) priv ->
  usize_ok (S (length ws)) -> (Z.of_nat ((length priv + length publics) * ff_bytes c) < U64)%Z ->
  ser_witness c pack (scalar_batch (length priv) (length publics) ((priv, publics) :: ws)) = Some bytes ->
  extract_outputs (bytes ++ rest) (length ins) =
    Some {| ex_inputs := ins; ex_outputs := outs; ex_base := base; ex_exponent := e; ex_modulus := p; ex_raw := publics |}.
Proof. exact (Extract.extract_file c pack priv ins outs base e ws bytes rest). Qed.
Print Assumptions C44_extracted_outputs.

Example C44_applies :
  let c := {| ff_bytes := 8; ff_modulus := GL |} in
  format_ok c /\ ff_bytes c = (if (ff_modulus c <? 2 ^ 64)%Z then 8 else 32) /\ Forall (representable GL) [-3; 4]%Z /\
  (let publics := map (convert_val GL) [-3; 4]%Z ++ map (convert_val GL) [-12]%Z ++ [2; 18]%Z in
   exists bytes, ser_witness c 1 (scalar_batch 1 (length publics) [([5%Z], publics)]) = Some bytes /\
    option_map ex_outputs (extract_outputs bytes 2) = Some [-12]%Z).
Proof.
  split; [split; [reflexivity|discriminate]|]. split; [reflexivity|]. split; [repeat constructor; discriminate|].
  eexists. split; [reflexivity|]. vm_compute. reflexivity.
Qed.

Local Open Scope Z_scope.
(** C42.  Encoding a signed integer and decoding it returns it whenever its absolute
    value is at most (p-1)/2; the encoding is the residue modulo p; every field element
    decodes to an integer it encodes. *)
Theorem C42_round_trip p v : 0 < p -> Z.abs v <= (p - 1) / 2 -> from_field_repr (convert_val p v) p = Some v.
Proof. exact (Extract.decode_encode p v). Qed.
Print Assumptions C42_round_trip.
Theorem C42_encoding p v : 0 < p -> 0 <= convert_val p v < p /\ (convert_val p v - v) mod p = 0.
Proof. exact (Extract.encoding_ok p v). Qed.
Print Assumptions C42_encoding.
Theorem C42_decoding p x : 0 <= x < p ->
  exists v, from_field_repr x p = Some v /\ convert_val p v = x /\ - (p - 1) / 2 <= v <= p / 2.
Proof. exact (Extract.encode_decode p x). Qed.
Print Assumptions C42_decoding.
Example C42_applies : Z.abs (-17) <= (101 - 1) / 2 /\ convert_val 101 (-17) = 84 /\ from_field_repr 84 101 = Some (-17).
Proof. vm_compute. repeat split; discriminate. Qed.

(** C43.  For a tolerance up to the modulus the comparison does not panic, and succeeds
    exactly when the lists have equal length and each pair differs by at most the
    tolerance on the circle modulo p. *)
Theorem C43_tolerance expected actual p tol : 0 < p -> 0 <= tol <= p ->
  exists r, compare_field_values expected actual p tol = Some r /\ (r = true <-> Forall2 (near p tol) expected actual).
Proof. exact (Extract.compare_iff expected actual p tol). Qed.
Print Assumptions C43_tolerance.
(** A tolerance above the modulus panics (the callers use 1). *)
Theorem C43_large_tolerance expected actual p tol : length expected = length actual -> p < tol ->
  compare_field_values expected actual p tol = None.
Proof. exact (Extract.compare_panics expected actual p tol). Qed.
Print Assumptions C43_large_tolerance.
(** For encoded integers: the client accepts exactly the expected inputs within one unit
    of the inputs in the witness. *)
Theorem C43_expected_inputs x p ins tl expected : ex_modulus x = p -> 1 < p -> ex_raw x = map (convert_val p) ins ++ tl ->
  Forall2 (fun e v => Z.abs (e - v) + 1 < p) expected ins ->
  (check_expected x expected (length ins) = Some tt <-> Forall2 (fun e v => Z.abs (e - v) <= 1) expected ins).
Proof. exact (Extract.expected_ok x p ins tl expected). Qed.
Print Assumptions C43_expected_inputs.
Example C43_applies :
  compare_field_values [100; 0] [0; 100] 101 1 = Some true /\ compare_field_values [100; 0] [1; 99] 101 1 = Some false.
Proof. split; reflexivity. Qed.
