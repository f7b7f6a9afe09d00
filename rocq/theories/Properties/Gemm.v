(** Gemm.  Theorems only, with a case that meets the hypotheses. *)
From Coq Require Import List Arith Bool ZArith Znumtheory Lia.
From Verif Require Import Spec.Numbers Spec.Matrix Spec.Shapes Spec.Tensors Spec.HonestProver Spec.Selection Spec.Conv Spec.Gemm
  Model.Builder Model.Gadgets Model.Freivalds Model.Selection Model.Gemm Proofs.RangeCheck Proofs.ConvLayer Proofs.GemmLayer.
Import ListNotations.
Local Open Scope Z_scope.

(** ** C131: an accepted proof of Gemm carries A' * B' + C.  Refuted: a C that is one column
    is added along the rows. *)
Theorem C131_gemm_refuted p c k n_bits : 1000 < p ->
  exists a w b y out, gemm_operands false false a w b /\ gemm_attributes plain false false /\ gemm false false a w b y /\
    yields p (gemm_layer p c plain false false k n_bits nothing [] (encoded p a) (encoded p w) (encoded p b)) out /\
    out <> encoded p y.
Proof. exact (column_bias_wrong p c k n_bits). Qed.
Print Assumptions C131_gemm_refuted.
(** For every other C the output is exact, unless the Freivalds check has accepted a wrong
    product (which C18 bounds). *)
Theorem C131_gemm_sound_partial p c F k s is_rescale is_relu P ta tb a w b y claimed challenges out :
  prime p -> (0 < c)%nat -> (k < 32)%nat -> (s < 64)%nat -> width_ok c k -> width_ok c (s + 1) ->
  2 * (2 ^ Z.of_nat k * 2 ^ Z.of_nat (rounded c (s + 1)) + 2 ^ Z.of_nat (rounded c k)) <= p ->
  (k mod c = 0)%nat -> ((s + 1) mod c = 0)%nat ->
  gemm_operands ta tb a w b -> gemm_attributes P ta tb -> gemm ta tb a w b y -> not_a_column b y ->
  Forall (layer_range k s is_rescale is_relu) (flat y) ->
  dims y = [m_rows claimed; m_cols claimed] -> is_matrix p (m_rows claimed) (m_cols claimed) (m_data claimed) ->
  accepts p (table_rows c F)
    (gemm_layer p c P is_rescale is_relu k (s + 1) claimed challenges (encoded p a) (encoded p w) (encoded p b)) out ->
  out = encoded p (after_layer k is_rescale is_relu y) \/
  exists A W, rows_modulo p ta a (m_data A) /\ rows_modulo p tb w (m_data W) /\
    should_use_freivalds (m_rows A) (m_cols A) (m_cols W) (freivalds_reps P) = true /\
    ~ is_product p (m_rows A) (m_cols A) (m_cols W) (m_data A) (m_data W) (m_data claimed) /\
    accepts p (table_rows c F) (freivalds p A W claimed challenges) tt.
Proof. exact (gemm_layer_sound p c F k s is_rescale is_relu P ta tb a w b y claimed challenges out). Qed.
Print Assumptions C131_gemm_sound_partial.
(** Without the Freivalds check the honest prover succeeds with that output. *)
Theorem C131_gemm_complete_partial p c F k s is_rescale is_relu P ta tb a w b y claimed challenges :
  prime p -> (0 < c)%nat -> (k < 32)%nat -> (s < 64)%nat -> width_ok c k -> width_ok c (s + 1) ->
  2 * (2 ^ Z.of_nat k * 2 ^ Z.of_nat (rounded c (s + 1)) + 2 ^ Z.of_nat (rounded c k)) <= p ->
  gemm_operands ta tb a w b -> gemm_attributes P ta tb -> gemm ta tb a w b y -> not_a_column b y ->
  Forall (layer_range k s is_rescale is_relu) (flat y) -> freivalds_reps P = 0%nat ->
  run honest_hint (table_rowsb c F)
    (gemm_layer p c P is_rescale is_relu k (s + 1) claimed challenges (encoded p a) (encoded p w) (encoded p b)) =
  Some (encoded p (after_layer k is_rescale is_relu y)).
Proof. exact (gemm_layer_run p c F k s is_rescale is_relu P ta tb a w b y claimed challenges). Qed.
Print Assumptions C131_gemm_complete_partial.
(** Operands that fit have such an output. *)
Theorem C131_gemm_defined ta tb a b c : gemm_operands ta tb a b c -> exists y, gemm ta tb a b c y.
Proof. exact (gemm_exists ta tb a b c). Qed.
Print Assumptions C131_gemm_defined.
(** A vector A is one row; a vector B is one column, or the rows of the expected shape; B of
    another size is refused, and so are alpha and beta other than 1. *)
Theorem C131_gemm_vectors_partial p c P is_rescale is_relu k n_bits claimed challenges a w b n :
  let layer := gemm_layer p c P is_rescale is_relu k n_bits claimed challenges in
  (dims a = [n] -> layer a w b = layer {| dims := [1%nat; n]; flat := flat a |} w b) /\
  (dims w = [n] -> expected_weight_shape P = None -> layer a w b = layer a {| dims := [n; 1%nat]; flat := flat w |} b) /\
  (forall r q, dims w = [n] -> expected_weight_shape P = Some (r, q) -> n = (r * q)%nat -> layer a w b = layer a {| dims := [r; q]; flat := flat w |} b) /\
  (forall r q, dims w = [n] -> expected_weight_shape P = Some (r, q) -> n <> (r * q)%nat -> rejected p (layer a w b)) /\
  (alpha_one P && beta_one P = false -> rejected p (layer a w b)).
Proof. exact (gemm_flat p c P is_rescale is_relu k n_bits claimed challenges a w b n). Qed.
Print Assumptions C131_gemm_vectors_partial.
Example C131_applies : gemm_operands false true (t4 [2; 3]%nat [1; 2; 3; 4; 5; 6]) (t4 [2; 3]%nat [1; 0; -1; 2; 2; 2]) (t4 [2]%nat [10; 20]) /\
  gemm false true (t4 [2; 3]%nat [1; 2; 3; 4; 5; 6]) (t4 [2; 3]%nat [1; 0; -1; 2; 2; 2]) (t4 [2]%nat [10; 20]) (t4 [2; 2]%nat [8; 32; 8; 50]) /\
  not_a_column (t4 [2]%nat [10; 20]) (t4 [2; 2]%nat [8; 32; 8; 50]).
Proof.
  split; [|split].
  - split; [reflexivity|]. split; [reflexivity|]. split; [reflexivity|]. exists 2%nat, 3%nat, 2%nat. split; [reflexivity|]. split; [reflexivity|].
    split; [cbn; lia|]. cbn. constructor; [now right|constructor].
  - split; [reflexivity|]. exists 2%nat, 3%nat, 2%nat. split; [reflexivity|]. split; [reflexivity|]. split; [reflexivity|].
    intros i j Hi Hj. destruct i as [|[|i]]; [| |lia]; (destruct j as [|[|j]]; [| |lia]); eexists; split; reflexivity.
  - intros m n _ D. discriminate D.
Qed.
