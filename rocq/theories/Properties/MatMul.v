(** MatMul.  Theorems only, with a case that meets the hypotheses. *)
From Coq Require Import List Arith Bool ZArith Znumtheory Lia.
From Verif Require Import Spec.Numbers Spec.Matrix Spec.Shapes Spec.Tensors Spec.HonestProver Spec.Selection Spec.Conv Spec.MatMul
  Model.Builder Model.Gadgets Model.Freivalds Model.Selection Model.Gemm Model.MatMul Proofs.RangeCheck Proofs.DataMovement5 Proofs.MatMul.
Import ListNotations.
Local Open Scope Z_scope.

(** ** C148: MatMul gives the product of each pair of matrices.  Refuted: batch axes of sizes 1
    and 2, which ONNX and the shape inference broadcast, are refused by the layer. *)
Theorem C148_broadcast_refuted p c reps is_rescale k n_bits claimed challenges : exists a w y,
  matmul_operands [1%nat] [2%nat] 1 1 1 a w /\ matmul [1%nat] [2%nat] 1 1 1 a w y /\ infer_matmul (dims a) (dims w) = Some (dims y) /\
  rejected p (matmul_layer p c reps is_rescale k n_bits claimed challenges (encoded p a) (encoded p w)).
Proof. exact (matmul_broadcast_refused p c reps is_rescale k n_bits claimed challenges). Qed.
Print Assumptions C148_broadcast_refuted.
(** When one operand is a single matrix or the batch axes agree, the output of an accepted proof
    is exact, unless the Freivalds check has accepted a wrong product of one pair of matrices
    (which C18 bounds). *)
Theorem C148_matmul_sound_partial p c F k s is_rescale ba bb m d n a w y reps claimed challenges out :
  prime p -> (0 < c)%nat -> (k < 32)%nat -> (s < 64)%nat -> width_ok c k -> width_ok c (s + 1) ->
  2 * (2 ^ Z.of_nat k * 2 ^ Z.of_nat (rounded c (s + 1)) + 2 ^ Z.of_nat (rounded c k)) <= p ->
  (k mod c = 0)%nat -> ((s + 1) mod c = 0)%nat ->
  matmul_operands ba bb m d n a w -> plain_batches ba bb -> matmul ba bb m d n a w y ->
  Forall (layer_range k s is_rescale false) (flat y) ->
  (forall q, m_rows (claimed q) = m /\ m_cols (claimed q) = n /\ is_matrix p m n (m_data (claimed q))) ->
  accepts p (table_rows c F) (matmul_layer p c reps is_rescale k (s + 1) claimed challenges (encoded p a) (encoded p w)) out ->
  out = encoded p (after_layer k is_rescale false y) \/
  exists o b A W, let q := row_major b o in dims y = o ++ [m; n] /\ in_range b o /\
    batch_modulo p a (read_coords b ba) m d (m_data A) /\ batch_modulo p w (read_coords b bb) d n (m_data W) /\
    should_use_freivalds m d n reps = true /\
    ~ is_product p m d n (m_data A) (m_data W) (m_data (claimed q)) /\
    accepts p (table_rows c F) (freivalds p A W (claimed q) (challenges q)) tt.
Proof. exact (matmul_layer_sound p c F k s is_rescale ba bb m d n a w y reps claimed challenges out). Qed.
Print Assumptions C148_matmul_sound_partial.
(** Without the Freivalds check the honest prover succeeds with that output. *)
Theorem C148_matmul_complete_partial p c F k s is_rescale ba bb m d n a w y claimed challenges :
  prime p -> (0 < c)%nat -> (k < 32)%nat -> (s < 64)%nat -> width_ok c k -> width_ok c (s + 1) ->
  2 * (2 ^ Z.of_nat k * 2 ^ Z.of_nat (rounded c (s + 1)) + 2 ^ Z.of_nat (rounded c k)) <= p ->
  matmul_operands ba bb m d n a w -> plain_batches ba bb -> matmul ba bb m d n a w y ->
  Forall (layer_range k s is_rescale false) (flat y) ->
  run honest_hint (table_rowsb c F) (matmul_layer p c 0 is_rescale k (s + 1) claimed challenges (encoded p a) (encoded p w)) =
  Some (encoded p (after_layer k is_rescale false y)).
Proof. exact (matmul_layer_run p c F k s is_rescale ba bb m d n a w y claimed challenges). Qed.
Print Assumptions C148_matmul_complete_partial.
(** The output has the announced shape. *)
Theorem C148_announced_partial ba bb m d n a w y : matmul_operands ba bb m d n a w -> plain_batches ba bb -> matmul ba bb m d n a w y ->
  infer_matmul (dims a) (dims w) = Some (dims y).
Proof. exact (matmul_announced ba bb m d n a w y). Qed.
Print Assumptions C148_announced_partial.
(** Inner sizes that differ, other batch axes, and vectors are refused. *)
Theorem C148_rejected_partial p c reps is_rescale k n_bits claimed challenges ba bb m d d' n a w :
  dims a = ba ++ [m; d] -> dims w = bb ++ [d'; n] -> d <> d' \/ (ba <> [] /\ bb <> [] /\ ba <> bb) ->
  rejected p (matmul_layer p c reps is_rescale k n_bits claimed challenges a w).
Proof. exact (matmul_refused p c reps is_rescale k n_bits claimed challenges ba bb m d d' n a w). Qed.
Print Assumptions C148_rejected_partial.
Theorem C148_vector_rejected_partial p c reps is_rescale k n_bits claimed challenges a w v :
  dims a = [v] \/ dims w = [v] -> rejected p (matmul_layer p c reps is_rescale k n_bits claimed challenges a w).
Proof. exact (matmul_vector_refused p c reps is_rescale k n_bits claimed challenges a w v). Qed.
Print Assumptions C148_vector_rejected_partial.
Example C148_applies :
  let a := {| dims := [2; 1; 2]%nat; flat := [1; 2; 3; 4] |} in let w := {| dims := [2; 1]%nat; flat := [10; -1] |} in
  matmul_operands [2%nat] [] 1 2 1 a w /\ plain_batches [2%nat] [] /\ matmul [2%nat] [] 1 2 1 a w {| dims := [2; 1; 1]%nat; flat := [8; 26] |}.
Proof.
  split; [repeat split|]. split; [split; [auto|split; repeat constructor]|]. split; [reflexivity|]. exists [2%nat].
  split; [apply broadcast_shapes_ok; reflexivity|]. split; [reflexivity|].
  intros cc i j Rc Hi Hj. inversion Rc as [|x ? l ? Hx Rl]; subst. inversion Rl; subst.
  assert (i = 0%nat) by lia. assert (j = 0%nat) by lia. subst. destruct x as [|[|x]]; [reflexivity|reflexivity|lia].
Qed.
