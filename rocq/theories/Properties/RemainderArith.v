(** Rescaling, padding and range-check shreds of the Remainder backend (C61, C62). *)
From Coq Require Import ZArith List Lia.
From Verif Require Import Spec.Remainder Model.Remainder Proofs.RemainderArith.
Import ListNotations.
Local Open Scope Z_scope.

(** ** C61: rescaling *)

(** Division with remainder, for every scale other than zero, whenever the
    shifted dividend is not negative and the quotient fits. *)
Theorem C61_rescale_exact : forall value alpha offset,
  alpha <> 0 -> i64 alpha -> 0 <= alpha * offset + value ->
  exists q r, value = q * alpha + r /\ 0 <= r < Z.abs alpha /\
    (i64 q -> compute_rescale value alpha offset = Some (q, r)).
Proof. exact rescale_exact. Qed.
Print Assumptions C61_rescale_exact.

(** With a positive scale the quotient always fits and is rounded down. *)
Theorem C61_rescale_floor : forall value alpha offset,
  0 < alpha -> i64 alpha -> i64 value -> 0 <= alpha * offset + value ->
  compute_rescale value alpha offset = Some (value / alpha, value mod alpha).
Proof. exact rescale_floor. Qed.
Print Assumptions C61_rescale_floor.

(** The same for whole tensors, in order. *)
Theorem C61_rescale_array : forall values alpha offset,
  0 < alpha -> i64 alpha -> (forall v, In v values -> i64 v /\ 0 <= alpha * offset + v) ->
  compute_rescale_array values alpha offset =
    Some (map (fun v => v / alpha) values, map (fun v => v mod alpha) values).
Proof. exact rescale_array_floor. Qed.
Print Assumptions C61_rescale_array.

(** Below the offset the remainder is negative unless the scale divides the
    value: the precondition is needed. *)
Theorem C61_rescale_below_offset : forall value alpha offset q r,
  0 < alpha -> i64 alpha -> i64 value -> alpha * offset + value < 0 ->
  compute_rescale value alpha offset = Some (q, r) ->
  - alpha < r <= 0 /\ (r = 0 <-> value mod alpha = 0).
Proof. exact rescale_below. Qed.
Print Assumptions C61_rescale_below_offset.

Example C61_ex : compute_rescale (-1000) 256 (2 ^ 30) = Some (-4, 24) /\ -1000 = -4 * 256 + 24.
Proof. split; reflexivity. Qed.
Example C61_below_ex : compute_rescale (-1000) 256 3 = Some (-3, -232).
Proof. reflexivity. Qed.

(** ** C62: padding *)

(** [2 ^ k] is the least power of two that holds the vector, [k] the number of
    variables announced for it. *)
Theorem C62_padding : forall l, Z.of_nat (length l) <= 2 ^ 63 ->
  exists k padded, pad_to_power_of_two l = Some padded /\ num_vars_for (Z.of_nat (length l)) = Some (Z.of_nat k) /\
    length padded = (2 ^ k)%nat /\ (length l <= 2 ^ k)%nat /\
    (forall j, (length l <= 2 ^ j)%nat -> (k <= j)%nat) /\
    firstn (length l) padded = l /\ skipn (length l) padded = repeat 0 (2 ^ k - length l).
Proof. exact pad_total. Qed.
Print Assumptions C62_padding.

Theorem C62_padding_overflow : forall l, 2 ^ 63 < Z.of_nat (length l) < 2 ^ 64 -> pad_to_power_of_two l = None.
Proof. exact pad_overflow. Qed.
Print Assumptions C62_padding_overflow.

Example C62_padding_ex : pad_to_power_of_two [7; 8; 9; 10; 11] = Some [7; 8; 9; 10; 11; 0; 0; 0].
Proof. reflexivity. Qed.

(** ** C62: multiplicities and chunks *)

Theorem C62_multiplicities : forall values w m,
  compute_multiplicities values (2 ^ w) = Some m -> counts m values w.
Proof. exact counts_ok. Qed.
Print Assumptions C62_multiplicities.

(** A width of at most nine bits needs one table; a wider one two chunks, from
    which the value can be read off. *)
Theorem C62_split : forall values w, (forall v, In v values -> in_width w v) ->
  if (w <=? CHUNK_BITS)%nat
  then exists m, split_range values w = Some (OneTable m) /\ counts m values w
  else exists c0 c1 m0 m1, split_range values w = Some (TwoChunks c0 c1 m0 m1) /\
    length c0 = length values /\ length c1 = length values /\
    (forall i, (i < length values)%nat ->
       entry c0 i + 2 ^ Z.of_nat CHUNK_BITS * entry c1 i = entry values i /\
       in_width CHUNK_BITS (entry c0 i) /\ in_width (w - CHUNK_BITS) (entry c1 i)) /\
    counts m0 c0 CHUNK_BITS /\ counts m1 c1 (w - CHUNK_BITS).
Proof. exact split_ok. Qed.
Print Assumptions C62_split.

(** A value outside the width is always an error. *)
Theorem C62_split_out_of_range : forall values w,
  (exists v, In v values /\ ~ in_width w v) -> split_range values w = None.
Proof. exact split_err. Qed.
Print Assumptions C62_split_out_of_range.

Example C62_split_ex : exists m0 m1, split_range [1000; 3] 10 = Some (TwoChunks [488; 3] [1; 0] m0 m1) /\ m1 = [1; 1].
Proof. do 2 eexists. split; reflexivity. Qed.
Example C62_split_err_ex : split_range [3; 1024] 10 = None.
Proof. reflexivity. Qed.
