(** C33-C36: the prime fields of the proof system as machine code.  A canonical
    M31 element is an integer in [0, 2^31 - 1); a Goldilocks element is any 64-bit
    word.  [None] is a panic (overflow, slice fault) or undefined behaviour. *)
From Coq Require Import ZArith List Bool Lia Znumtheory.
From Verif Require Import Base.Machine Model.Fields Proofs.M31 Proofs.Goldilocks.
Import ListNotations.
Local Open Scope Z_scope.

(** ** C33  M31 arithmetic on canonical elements is exact *)
Theorem C33_modulus_prime : M31 = 2 ^ 31 - 1 /\ prime M31.
Proof. exact (conj eq_refl prime_M31). Qed.
Print Assumptions C33_modulus_prime.

Theorem C33_arithmetic_exact a b : 0 <= a < M31 -> 0 <= b < M31 ->
  m31_add a b = Some ((a + b) mod M31) /\ m31_sub a b = Some ((a - b) mod M31) /\
  m31_mul a b = Some ((a * b) mod M31) /\ m31_neg a = Some ((- a) mod M31) /\
  m31_double a = Some ((2 * a) mod M31) /\ m31_square a = Some (a ^ 2 mod M31) /\
  m31_mul_by_5 a = Some ((5 * a) mod M31) /\ m31_mul_by_6 a = Some ((6 * a) mod M31) /\
  m31_eq a b = Some (a =? b) /\ m31_is_zero a = (a =? 0).
Proof. exact (arithmetic_exact a b). Qed.
Print Assumptions C33_arithmetic_exact.

Theorem C33_inverse a : 0 <= a < M31 ->
  (a = 0 -> m31_inv a = Some None) /\
  (a <> 0 -> exists r, m31_inv a = Some (Some r) /\ 0 <= r < M31 /\ (a * r) mod M31 = 1).
Proof. exact (inv_ok a). Qed.
Print Assumptions C33_inverse.

Theorem C33_power a e : 0 <= a < M31 -> 0 <= e < 2 ^ 128 -> m31_exp a e = Some (a ^ e mod M31).
Proof. exact (exp_ok a e). Qed.
Print Assumptions C33_power.

Theorem C33_conversions : (forall x, 0 <= x < 2 ^ 32 -> m31_from_u32 x = x mod M31) /\
  (forall x, 0 <= x < 2 ^ 256 -> m31_from_u256 x = Some (x mod M31)) /\
  (forall v, 0 <= v < M31 -> m31_to_u256 v = Some v).
Proof. exact (conj from_u32_ok (conj from_u256_ok reduce_canon)). Qed.
Print Assumptions C33_conversions.

Theorem C33_serialise_round_trip v : 0 <= v < M31 -> exists bs, m31_serialize v = Some bs /\
  length bs = 4%nat /\ forall rest, m31_deserialize (bs ++ rest) = Some (v, rest).
Proof. exact (serialize_ok v). Qed.
Print Assumptions C33_serialise_round_trip.

Example C33_applies : 0 <= 2147483646 < M31 /\ m31_mul 2147483646 2147483645 = Some 2 /\
  m31_inv 3 = Some (Some 1431655765) /\ m31_from_u256 (2 ^ 255 + 12345) = Some 12473.
Proof. unfold M31. repeat split; try lia; vm_compute; reflexivity. Qed.

(** ** C34  Constructors give canonical elements: false *)
Theorem C34_constructors_canonical_refuted :
  ~ (forall bs v, Forall is_byte bs -> m31_from_uniform_bytes bs = Some v -> 0 <= v < M31).
Proof. exact constructors_refuted. Qed.
Print Assumptions C34_constructors_canonical_refuted.

(** The bad element: 2^31, on which negation underflows. *)
Theorem C34_bad_element rest : m31_from_uniform_bytes ([255; 255; 255; 255] ++ rest) = Some (2 ^ 31) /\
  m31_neg (2 ^ 31) = None /\ ~ 0 <= 2 ^ 31 < M31.
Proof. exact (uniform_bytes_bad rest). Qed.
Print Assumptions C34_bad_element.

(** Every other input of the constructors gives the canonical residue. *)
Theorem C34_uniform_bytes_partial bs : Forall is_byte bs -> (4 <= length bs)%nat ->
  firstn 4 bs <> [255; 255; 255; 255] ->
  exists v, m31_from_uniform_bytes bs = Some v /\ 0 <= v < M31 /\ v = le_val (firstn 4 bs) mod M31.
Proof. exact (uniform_bytes_ok bs). Qed.
Print Assumptions C34_uniform_bytes_partial.

Theorem C34_from_u32_partial x : 0 <= x < 2 ^ 32 -> 0 <= m31_from_u32 x < M31.
Proof. exact (from_u32_canon x). Qed.
Print Assumptions C34_from_u32_partial.

Theorem C34_deserialise_partial bs v rest : Forall is_byte bs -> m31_deserialize bs = Some (v, rest) ->
  0 <= v < M31 /\ bs = le_bytes 4 v ++ rest.
Proof. exact (deserialize_canon bs v rest). Qed.
Print Assumptions C34_deserialise_partial.

Example C34_applies : m31_from_uniform_bytes [254; 255; 255; 255] = Some 0 /\
  m31_deserialize [1; 2; 3; 4; 5] = Some (67305985, [5]).
Proof. split; vm_compute; reflexivity. Qed.

(** ** C35  Goldilocks arithmetic is exact for every representation *)
Theorem C35_modulus_prime : GL = 2 ^ 64 - 2 ^ 32 + 1 /\ prime GL.
Proof. exact (conj eq_refl GL_prime). Qed.
Print Assumptions C35_modulus_prime.

Theorem C35_add a b : 0 <= a < 2 ^ 64 -> 0 <= b < 2 ^ 64 ->
  exists r, gl_add a b = Some r /\ 0 <= r < 2 ^ 64 /\ r mod GL = (a + b) mod GL.
Proof. exact (gadd_ok a b). Qed.
Print Assumptions C35_add.

Theorem C35_sub a b : 0 <= a < 2 ^ 64 -> 0 <= b < 2 ^ 64 ->
  exists r, gl_sub a b = Some r /\ 0 <= r < 2 ^ 64 /\ r mod GL = (a - b) mod GL.
Proof. exact (gsub_ok a b). Qed.
Print Assumptions C35_sub.

Theorem C35_mul a b : 0 <= a < 2 ^ 64 -> 0 <= b < 2 ^ 64 ->
  exists r, gl_mul a b = Some r /\ 0 <= r < 2 ^ 64 /\ r mod GL = (a * b) mod GL.
Proof. exact (gmul_ok a b). Qed.
Print Assumptions C35_mul.

Theorem C35_neg a : 0 <= a < 2 ^ 64 ->
  exists r, gl_neg a = Some r /\ 0 <= r < 2 ^ 64 /\ r mod GL = (- a) mod GL.
Proof. exact (gneg_ok a). Qed.
Print Assumptions C35_neg.

(** Equality, the zero test, conversions and bytes see only the residue. *)
Theorem C35_equality a b : 0 <= a < 2 ^ 64 -> 0 <= b < 2 ^ 64 ->
  (gl_eq a b = true <-> a mod GL = b mod GL) /\ (gl_is_zero a = true <-> a mod GL = 0).
Proof. exact (fun Ha Hb => conj (geq_ok a b Ha Hb) (gis_zero_ok a Ha)). Qed.
Print Assumptions C35_equality.

Theorem C35_conversions : (forall x, 0 <= x < 2 ^ 64 -> gl_from_u64 x = x mod GL /\ gl_to_u256 x = x mod GL) /\
  (forall x, 0 <= x < 2 ^ 32 -> gl_from_u32 x = x mod GL) /\
  (forall x, 0 <= x -> gl_from_u256 x = x mod GL) /\
  (forall bs, Forall is_byte bs -> (8 <= length bs)%nat ->
     gl_from_uniform_bytes bs = Some (le_val (firstn 8 bs) mod GL)).
Proof. exact gconversions. Qed.
Print Assumptions C35_conversions.

Theorem C35_serialise_round_trip v rest : 0 <= v < 2 ^ 64 ->
  gl_deserialize (gl_serialize v ++ rest) = Some (v mod GL, rest).
Proof. exact (gserialize_ok v rest). Qed.
Print Assumptions C35_serialise_round_trip.

Theorem C35_deserialise_canonical bs v rest : Forall is_byte bs -> gl_deserialize bs = Some (v, rest) ->
  0 <= v < GL /\ bs = gl_serialize v ++ rest.
Proof. exact (gdeserialize_canon bs v rest). Qed.
Print Assumptions C35_deserialise_canonical.

Example C35_applies : gl_add (2 ^ 64 - 1) (2 ^ 64 - 1) = Some 8589934588 /\
  gl_sub 0 (2 ^ 64 - 1) = Some 18446744065119617027 /\ gl_mul (2 ^ 64 - 1) (2 ^ 64 - 1) = Some 18446744056529682436.
Proof. repeat split; vm_compute; reflexivity. Qed.

(** ** C36  Goldilocks inversion *)
(** With the coefficients c and d as unbounded integers the algorithm is totally correct. *)
Theorem C36_inverse_unbounded_partial x : 0 <= x < 2 ^ 64 ->
  (x mod GL = 0 -> try_inverse_u64 Some x = Some None) /\
  (x mod GL <> 0 -> exists r, try_inverse_u64 Some x = Some (Some r) /\ 0 <= r < 2 ^ 64 /\ (x * r) mod GL = 1).
Proof. exact (fun H => conj (inverse_zero Some x H) (inverse_ok x H)). Qed.
Print Assumptions C36_inverse_unbounded_partial.

(** With the code's 128-bit c and d: right unless c or d leaves the 128-bit range.
    Missing: that they never do (the code's comments leave it open as well). *)
Theorem C36_inverse_partial x : 0 <= x < 2 ^ 64 ->
  (x mod GL = 0 -> gl_inv x = Some None) /\
  (x mod GL <> 0 -> gl_inv x = None \/ exists r, gl_inv x = Some (Some r) /\ 0 <= r < 2 ^ 64 /\ (x * r) mod GL = 1).
Proof. exact (gl_inv_ok x). Qed.
Print Assumptions C36_inverse_partial.

Theorem C36_inverse_of_power_of_two e : 0 <= e ->
  exists r, inverse_2exp e = Some r /\ 0 <= r < 2 ^ 64 /\ (r * 2 ^ e) mod GL = 1.
Proof. exact (inverse_2exp_ok e). Qed.
Print Assumptions C36_inverse_of_power_of_two.

Example C36_applies : gl_inv GL = Some None /\ gl_inv 3 = Some (Some 12297829379609722881) /\
  gl_inv 18446744073709551615 = Some (Some 12297829378178067115) /\ gl_inv 1234567890123456789 = Some (Some 15859278008190446452) /\
  (1234567890123456789 * 15859278008190446452) mod GL = 1.
Proof. split; [|split; [|split; [|split]]]; vm_compute; reflexivity. Qed.
