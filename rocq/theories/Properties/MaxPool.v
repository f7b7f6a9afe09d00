(** MaxPool.  Theorems only, with a case that meets the hypotheses. *)
From Coq Require Import List Arith Bool ZArith Znumtheory Lia.
From Verif Require Import Spec.Numbers Spec.Shapes Spec.Tensors Spec.HonestProver Spec.Selection Spec.Conv Spec.ConvTranspose Spec.MaxPool
  Model.Builder Model.Gadgets Model.Selection Model.MaxPool Model.MaxPoolLayer Proofs.RangeCheck Proofs.ConvLayer Proofs.MaxPool.
Import ListNotations.
Local Open Scope Z_scope.

(** ** C134: without ceil_mode, MaxPool gives at each window the largest element of the image
    under it, whatever the prover does, when the width is a multiple of the chunk (as in C08). *)
Theorem C134_maxpool_exact p c F s a P x y out :
  prime p -> (0 < c)%nat -> (s < 64)%nat -> width_ok c (s + 1) -> 2 * 2 ^ Z.of_nat (s + 1) <= p -> ((s + 1) mod c = 0)%nat ->
  mp_attributes a P false -> pool_fits P x -> windows_touch P x -> Forall (signed_fits s) (flat x) ->
  well_formed y -> max_pooled false P x y ->
  accepts p (table_rows c F) (maxpool_layer p c a (s + 1) (encoded p x)) out <-> out = encoded p y.
Proof. exact (fun h1 h2 h3 h4 h5 => maxpool_layer_exact p c F s h1 h2 h3 h4 h5 a P false x y out). Qed.
Print Assumptions C134_maxpool_exact.
Theorem C134_maxpool_complete p c F s a P x y :
  prime p -> (0 < c)%nat -> (s < 64)%nat -> width_ok c (s + 1) -> 2 * 2 ^ Z.of_nat (s + 1) <= p -> 2 ^ Z.of_nat (rounded c (s + 1)) <= p ->
  mp_attributes a P false -> pool_fits P x -> windows_touch P x -> Forall (signed_fits s) (flat x) ->
  well_formed y -> max_pooled false P x y ->
  run honest_hint (table_rowsb c F) (maxpool_layer p c a (s + 1) (encoded p x)) = Some (encoded p y).
Proof. exact (fun h1 h2 h3 h4 h5 => maxpool_layer_run p c F s h1 h2 h3 h4 h5 a P false x y). Qed.
Print Assumptions C134_maxpool_complete.
(** The pooled image exists, and undilated windows padded by less than the window, as ONNX
    asks, all touch the image. *)
Theorem C134_maxpool_defined P x : pool_fits P x -> windows_touch P x -> exists y, well_formed y /\ max_pooled false P x y.
Proof. exact (max_pooled_exists P x). Qed.
Print Assumptions C134_maxpool_defined.
Theorem C134_windows_touch P x : pool_fits P x -> dil_h P = 1%nat -> dil_w P = 1%nat -> padding_below_window P -> ~ In 0%nat (dims x) ->
  windows_touch P x.
Proof. exact (onnx_windows_touch P x). Qed.
Print Assumptions C134_windows_touch.
Definition image : tensor Z := t4 [1; 2; 3; 3]%nat [1; -2; 3; 4; 5; -6; 7; 8; -9; -10; -11; -12; -13; -14; -15; -16; -17; -18].
Definition pool22 : pool := {| win_h := 2; win_w := 2; dil_h := 1; dil_w := 1; moves := square 2 1 |}.
Definition node : mp_node :=
  {| mp_kernel := Some [2; 2]%nat; mp_strides := Some [2; 2]%nat; mp_pads := Some [1; 1; 1; 1]%nat; mp_dilations := None; mp_ceil_mode := false |}.
Definition pooled : tensor Z := t4 [1; 2; 2; 2]%nat [1; 3; 7; 8; -10; -11; -13; -14].
Example C134_applies : mp_attributes node pool22 false /\ pool_fits pool22 image /\ padding_below_window pool22 /\ ~ In 0%nat (dims image) /\
  Forall (signed_fits 35) (flat image) /\ infer_maxpool node (dims image) = Some (dims pooled) /\
  setup_maxpooling node (dims image) = Some (pooling_of pool22, (1, 2, 3, 3)%nat, (2, 2)%nat) /\
  map (fun o : nat * nat * nat => let '(c, i, j) := o in option_map mx (window_values (pooling_of pool22) image 3 3 0 c i j))
    (list_prod (list_prod [0; 1] [0; 1]) [0; 1])%nat = map Some (flat pooled).
Proof.
  split. { split; [reflexivity|]. split; [now left|]. split; [now left|]. split; [right; now split|reflexivity]. }
  split. { split; [reflexivity|]. cbn. repeat (split; [lia|]). exists 1%nat, 2%nat, 3%nat, 3%nat. split; [reflexivity|]. lia. }
  split; [unfold padding_below_window; cbn; lia|]. split; [cbn; lia|].
  split; [repeat constructor; vm_compute; congruence|]. split; [reflexivity|]. split; reflexivity.
Qed.

(** ** C135: MaxPool has the ONNX shape, the one inferred, and the ONNX values for every valid
    node.  Refuted: ceil_mode is ignored; dilations are ignored by the shape inference; a dilated
    window that misses the image gives 0. *)
Theorem C135_maxpool_shape_refuted :
  (exists a P x, mp_attributes a P true /\ pool_fits P x /\ windows_touch P x /\
    pool_shape true P x = [1; 1; 2; 1]%nat /\ infer_maxpool a (dims x) = Some [1; 1; 1; 1]%nat /\
    forall p c n_bits T out, accepts p T (maxpool_layer p c a n_bits (encoded p x)) out -> dims out = [1; 1; 1; 1]%nat) /\
  (exists a P x, mp_attributes a P false /\ pool_fits P x /\ windows_touch P x /\
    infer_maxpool a (dims x) = Some [1; 1; 2; 1]%nat /\
    forall p c n_bits T out, accepts p T (maxpool_layer p c a n_bits (encoded p x)) out -> dims out = [1; 1; 1; 1]%nat) /\
  (exists a P x, mp_attributes a P false /\ pool_fits P x /\ padding_below_window P /\ Forall (fun v => v < 0) (flat x) /\
    forall p c n_bits T out, accepts p T (maxpool_layer p c a n_bits (encoded p x)) out -> out = encoded p (t4 [1; 1; 1; 1]%nat [0])).
Proof. exact (conj ceil_ignored (conj dilation_shape missed_window)). Qed.
Print Assumptions C135_maxpool_shape_refuted.
(** With ceil_mode a proof is nevertheless made and accepted, of the pooling without it. *)
Theorem C135_ceil_mode_ignored_refuted p c F s a P x y :
  prime p -> (0 < c)%nat -> (s < 64)%nat -> width_ok c (s + 1) -> 2 * 2 ^ Z.of_nat (s + 1) <= p -> 2 ^ Z.of_nat (rounded c (s + 1)) <= p ->
  mp_attributes a P true -> pool_fits P x -> windows_touch P x -> Forall (signed_fits s) (flat x) ->
  well_formed y -> max_pooled false P x y ->
  run honest_hint (table_rowsb c F) (maxpool_layer p c a (s + 1) (encoded p x)) = Some (encoded p y).
Proof. exact (fun h1 h2 h3 h4 h5 => maxpool_layer_run p c F s h1 h2 h3 h4 h5 a P true x y). Qed.
Print Assumptions C135_ceil_mode_ignored_refuted.
(** Without ceil_mode and dilations the inferred shape is the ONNX shape, that of C134. *)
Theorem C135_maxpool_shape_partial a P x : mp_attributes a P false -> pool_fits P x -> dil_h P = 1%nat -> dil_w P = 1%nat ->
  infer_maxpool a (dims x) = Some (pool_shape false P x).
Proof. exact (infer_maxpool_ok a P x). Qed.
Print Assumptions C135_maxpool_shape_partial.
(** The case of [C134_applies] meets the hypotheses. *)
