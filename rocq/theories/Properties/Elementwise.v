(** Max, Min, Mul, Div, BatchNormalization and Neg.  Theorems only, with cases that meet the
    hypotheses. *)
From Coq Require Import List Arith Bool ZArith Znumtheory Lia QArith String.
From Verif Require Import Spec.Numbers Spec.Shapes Spec.Tensors Spec.HonestProver Spec.Selection Spec.Conv Spec.Elementwise
  Model.Builder Model.Gadgets Model.Selection Model.Elementwise Model.Constants Proofs.RangeCheck Proofs.Gadgets Proofs.SelectionProps Proofs.Elementwise Proofs.ElementwiseProps.
Import ListNotations.
Local Open Scope Z_scope.

(** ** C136: an accepted proof of Max or Min carries the largest or smallest element of all its
    operands, broadcast, and the inferred shape is that of the output.
    Refuted: operands after the second are ignored, and so is broadcasting by shape inference. *)
Theorem C136_more_operands_refuted p c F s is_max :
  prime p -> (0 < c)%nat -> (s < 64)%nat -> width_ok c (s + 1) -> 2 * 2 ^ Z.of_nat (s + 1) <= p -> ((s + 1) mod c = 0)%nat ->
  exists l y out, folded (extremum is_max) l y /\ Forall (fun a => Forall (signed_fits s) (flat a)) l /\
    (forall o, accepts p (table_rows c F) (compare_layer p c is_max (s + 1) (map (encoded p) l)) o <-> o = out) /\ out <> encoded p y.
Proof. exact (fun h1 h2 h3 h4 h5 h6 => third_operand_ignored p c F s h1 h2 h3 h4 h5 h6 is_max). Qed.
Print Assumptions C136_more_operands_refuted.
Theorem C136_shape_refuted :
  exists a b y, operands a b /\ well_formed y /\ pointwise2 Z.max a b y /\ infer_compare [dims a; dims b] <> Some (dims y).
Proof. exact compare_shape_wrong. Qed.
Print Assumptions C136_shape_refuted.
(** For two operands the output is exact, whatever the prover does, when the width is a multiple
    of the chunk; the honest prover succeeds at all widths; and the inferred shape is right when
    the first operand has the shape of the output. *)
Theorem C136_two_operands_partial p c F s is_max a b y out :
  prime p -> (0 < c)%nat -> (s < 64)%nat -> width_ok c (s + 1) -> 2 * 2 ^ Z.of_nat (s + 1) <= p -> ((s + 1) mod c = 0)%nat ->
  operands a b -> Forall (signed_fits s) (flat a) -> Forall (signed_fits s) (flat b) ->
  well_formed y -> pointwise2 (extremum is_max) a b y ->
  accepts p (table_rows c F) (compare_layer p c is_max (s + 1) [encoded p a; encoded p b]) out <-> out = encoded p y.
Proof. exact (fun h1 h2 h3 => compare_exact p c F s h1 h2 h3 is_max a b [] y out). Qed.
Print Assumptions C136_two_operands_partial.
Theorem C136_two_operands_complete_partial p c F s is_max a b y :
  prime p -> (0 < c)%nat -> (s < 64)%nat -> width_ok c (s + 1) -> 2 * 2 ^ Z.of_nat (s + 1) <= p -> 2 ^ Z.of_nat (rounded c (s + 1)) <= p ->
  operands a b -> Forall (signed_fits s) (flat a) -> Forall (signed_fits s) (flat b) ->
  well_formed y -> pointwise2 (extremum is_max) a b y ->
  run honest_hint (table_rowsb c F) (compare_layer p c is_max (s + 1) [encoded p a; encoded p b]) = Some (encoded p y).
Proof. exact (fun h1 h2 h3 => compare_run p c F s h1 h2 h3 is_max a b [] y). Qed.
Print Assumptions C136_two_operands_complete_partial.
Theorem C136_shape_partial g a b y : broadcasts_to (dims a) (dims b) (dims a) -> pointwise2 g a b y ->
  infer_compare [dims a; dims b] = Some (dims y).
Proof. exact (compare_shape_right g a b y). Qed.
Print Assumptions C136_shape_partial.
(** Operands that broadcast have such an output. *)
Theorem C136_defined g a b r : operands a b -> broadcasts_to (dims a) (dims b) r -> exists y, dims y = r /\ well_formed y /\ pointwise2 g a b y.
Proof. exact (pointwise2_exists g a b r). Qed.
Print Assumptions C136_defined.
Definition column : tensor Z := {| dims := [2; 1]%nat; flat := [4; -1] |}.
Definition row : tensor Z := {| dims := [2]%nat; flat := [1; 5] |}.
Example C136_applies : operands column row /\ broadcasts_to (dims column) (dims row) [2; 2]%nat /\
  Forall (signed_fits 35) (flat column) /\ Forall (signed_fits 35) (flat row) /\ width_ok 12 (35 + 1) /\ 2 * 2 ^ Z.of_nat (35 + 1) <= bn254_r /\
  run honest_hint (fun _ _ => true) (compare_layer bn254_r 12 true 36 [encoded bn254_r column; encoded bn254_r row]) =
    Some (encoded bn254_r {| dims := [2; 2]%nat; flat := [4; 5; 1; 5] |}).
Proof.
  split; [repeat split; repeat constructor|]. split.
  { split; [reflexivity|]. intros i Hi. cbn in Hi. destruct i as [|[|i]]; [right; left|right; right|lia]; split; reflexivity. }
  split; [repeat constructor; discriminate|]. split; [repeat constructor; discriminate|].
  split; [split; [lia|discriminate]|]. split; [discriminate|]. vm_compute. reflexivity.
Qed.

(** ** C137: an accepted proof of Mul carries the products of the broadcast operands, rescaled
    and clipped at 0 as the layer asks. *)
Theorem C137_mul_exact p c F k s is_rescale is_relu a b y out :
  prime p -> (0 < c)%nat -> (k < 32)%nat -> (s < 64)%nat -> width_ok c k -> width_ok c (s + 1) ->
  2 * (2 ^ Z.of_nat k * 2 ^ Z.of_nat (rounded c (s + 1)) + 2 ^ Z.of_nat (rounded c k)) <= p ->
  (k mod c = 0)%nat -> ((s + 1) mod c = 0)%nat ->
  operands a b -> well_formed y -> pointwise2 Z.mul a b y -> Forall (layer_range k s is_rescale is_relu) (flat y) ->
  accepts p (table_rows c F) (mul_layer p c is_rescale is_relu k (s + 1) (encoded p a) (encoded p b)) out <->
  out = encoded p (after_layer k is_rescale is_relu y).
Proof. exact (fun h1 h2 h3 h4 h5 h6 h7 => mul_exact p c F s h1 h2 h4 k is_rescale is_relu h3 h5 h6 h7 a b y out). Qed.
Print Assumptions C137_mul_exact.
Theorem C137_mul_complete p c F k s is_rescale is_relu a b y :
  prime p -> (0 < c)%nat -> (k < 32)%nat -> (s < 64)%nat -> width_ok c k -> width_ok c (s + 1) ->
  2 * (2 ^ Z.of_nat k * 2 ^ Z.of_nat (rounded c (s + 1)) + 2 ^ Z.of_nat (rounded c k)) <= p ->
  operands a b -> well_formed y -> pointwise2 Z.mul a b y -> Forall (layer_range k s is_rescale is_relu) (flat y) ->
  run honest_hint (table_rowsb c F) (mul_layer p c is_rescale is_relu k (s + 1) (encoded p a) (encoded p b)) =
  Some (encoded p (after_layer k is_rescale is_relu y)).
Proof. exact (fun h1 h2 h3 h4 h5 h6 h7 => mul_run p c F s h1 h2 h4 k is_rescale is_relu h3 h5 h6 h7 a b y). Qed.
Print Assumptions C137_mul_complete.
Theorem C137_mul_rejects p c k n_bits is_rescale is_relu a b : Forall (lt 0%nat) (dims a) -> Forall (lt 0%nat) (dims b) ->
  (forall r, ~ broadcasts_to (dims a) (dims b) r) -> rejected p (mul_layer p c is_rescale is_relu k n_bits (encoded p a) (encoded p b)).
Proof. exact (mul_rejects p c k n_bits is_rescale is_relu a b). Qed.
Print Assumptions C137_mul_rejects.
Example C137_applies : (24 mod 12 = 0)%nat /\ ((35 + 1) mod 12 = 0)%nat /\ width_ok 12 24 /\ width_ok 12 (35 + 1) /\
  2 * (2 ^ Z.of_nat 24 * 2 ^ Z.of_nat (rounded 12 (35 + 1)) + 2 ^ Z.of_nat (rounded 12 24)) <= bn254_r /\
  Forall (layer_range 24 35 true true) [4; 20; -1; -5] /\
  run honest_hint (fun _ _ => true) (mul_layer bn254_r 12 true true 2 36 (encoded bn254_r column) (encoded bn254_r row)) =
    Some (encoded bn254_r {| dims := [2; 2]%nat; flat := [1; 5; 0; 0] |}).
Proof.
  split; [reflexivity|]. split; [reflexivity|]. split; [split; [lia|discriminate]|]. split; [split; [lia|discriminate]|].
  split; [vm_compute; discriminate|]. split; [repeat constructor; vm_compute; discriminate|]. vm_compute. reflexivity.
Qed.

(** ** C138: an accepted proof of Div carries the quotients, rounded down, by the constants of
    the model.  Refuted: the divisor enters as its integer part (10 / 2.5 gives 5), and at the
    default widths the prover may choose the quotient (0 / 2 gives 2047). *)
Theorem C138_fractional_divisor_refuted p c F k s alpha :
  prime p -> (0 < c)%nat -> (k < 32)%nat -> (3 <= s < 64)%nat -> width_ok c 1 -> width_ok c (s + 1) ->
  2 * 2 ^ Z.of_nat (rounded c (s + 1)) + 2 * 2 ^ Z.of_nat (rounded c 1) <= p ->
  exists d, circuit_constant alpha [div_by (5 # 2)] "d" = Some [d] /\
    run honest_hint (table_rowsb c F) (div_layer p c k (s + 1) (encoded p (one 10)) (Some (one d))) = Some (encoded p (one 5)).
Proof. exact (div_fractional p c F k s alpha). Qed.
Print Assumptions C138_fractional_divisor_refuted.
Theorem C138_default_parameters_refuted :
  accepts bn254_r (table_rows 12 (fun _ => [])) (div_layer bn254_r 12 18 64 (encoded bn254_r (one 0)) (Some (one 2))) (encoded bn254_r (one 2047)).
Proof. exact div_default. Qed.
Print Assumptions C138_default_parameters_refuted.
(** By integer divisors from 1 to 2^32 - 1 the quotients are exact when the remainders of each
    divisor take a multiple of the chunk; the honest prover succeeds at all widths; other
    divisors, and computed ones, are refused. *)
Theorem C138_div_exact_partial p c F k s a b y out :
  prime p -> (0 < c)%nat -> (k < 32)%nat -> (s < 64)%nat -> width_ok c (s + 1) -> operands a b -> well_formed y -> pointwise2 Z.div a b y ->
  (forall x d, In x (flat a) -> In d (flat b) -> division_fits p (rounded c) s x d) ->
  (forall d, In d (flat b) -> d = 1 \/ width_ok c (remainder_bits d) /\ (remainder_bits d mod c = 0)%nat) ->
  accepts p (table_rows c F) (div_layer p c k (s + 1) (encoded p a) (Some b)) out <-> out = encoded p y.
Proof. exact (fun h1 h2 h3 h4 => div_exact p c F s h1 h2 h4 k a b y out h3). Qed.
Print Assumptions C138_div_exact_partial.
Theorem C138_div_complete_partial p c F k s a b y :
  prime p -> (0 < c)%nat -> (k < 32)%nat -> (s < 64)%nat -> width_ok c (s + 1) -> operands a b -> well_formed y -> pointwise2 Z.div a b y ->
  (forall x d, In x (flat a) -> In d (flat b) -> division_fits p (rounded c) s x d) ->
  (forall d, In d (flat b) -> d = 1 \/ width_ok c (remainder_bits d)) ->
  run honest_hint (table_rowsb c F) (div_layer p c k (s + 1) (encoded p a) (Some b)) = Some (encoded p y).
Proof. exact (fun h1 h2 h3 h4 => div_run p c F s h1 h2 h4 k a b y h3). Qed.
Print Assumptions C138_div_complete_partial.
Theorem C138_div_refuses_partial p c k n_bits a : rejected p (div_layer p c k n_bits a None) /\
  forall b d x, operands x b -> In d (flat b) -> ~ 1 <= d < 2 ^ 32 -> rejected p (div_layer p c k n_bits (encoded p x) (Some b)).
Proof. exact (conj (div_no_constant p c k n_bits a) (fun b d x => div_bad_divisor p c k n_bits x b d)). Qed.
Print Assumptions C138_div_refuses_partial.
Example C138_applies : (forall x d, In x [-7; 100] -> In d [1; 4095; 4096] -> division_fits bn254_r (rounded 12) 35 x d) /\
  (forall d, In d [1; 4095; 4096] -> d = 1 \/ width_ok 12 (remainder_bits d) /\ (remainder_bits d mod 12 = 0)%nat) /\
  run honest_hint (fun _ _ => true) (div_layer bn254_r 12 18 36 (encoded bn254_r column) (Some {| dims := [2]%nat; flat := [2; 3] |})) =
    Some (encoded bn254_r {| dims := [2; 2]%nat; flat := [2; 1; -1; -1] |}).
Proof.
  split.
  { intros x d Ix Id. repeat (destruct Id as [<-|Id]); [..|contradiction]; (split; [lia|]); [left; reflexivity|right|right];
      (split; [vm_compute; discriminate|]); repeat (destruct Ix as [<-|Ix]); [..|contradiction| | |contradiction]; split; vm_compute; congruence. }
  split; [|vm_compute; reflexivity].
  intros d Id. repeat (destruct Id as [<-|Id]); [..|contradiction]; [now left|right|right]; (split; [split; [vm_compute; lia|discriminate]|reflexivity]).
Qed.

(** ** C139: an accepted proof of a (folded) BatchNormalization carries x * factor + summand of
    the channel, rescaled and clipped at 0 as the layer asks. *)
Theorem C139_batchnorm_exact p c F k s is_rescale is_relu x w b y out :
  prime p -> (0 < c)%nat -> (k < 32)%nat -> (s < 64)%nat -> width_ok c k -> width_ok c (s + 1) ->
  2 * (2 ^ Z.of_nat k * 2 ^ Z.of_nat (rounded c (s + 1)) + 2 ^ Z.of_nat (rounded c k)) <= p ->
  (k mod c = 0)%nat -> ((s + 1) mod c = 0)%nat ->
  well_formed x -> well_formed w -> well_formed b -> well_formed y -> Forall (lt 0%nat) (dims x) -> normalised x w b y ->
  Forall (layer_range k s is_rescale is_relu) (flat y) ->
  accepts p (table_rows c F) (batchnorm_layer p c is_rescale is_relu k (s + 1) (encoded p x) (encoded p w) (encoded p b)) out <->
  out = encoded p (after_layer k is_rescale is_relu y).
Proof. exact (batchnorm_exact p c F k s is_rescale is_relu x w b y out). Qed.
Print Assumptions C139_batchnorm_exact.
Theorem C139_batchnorm_complete p c F k s is_rescale is_relu x w b y :
  prime p -> (0 < c)%nat -> (k < 32)%nat -> (s < 64)%nat -> width_ok c k -> width_ok c (s + 1) ->
  2 * (2 ^ Z.of_nat k * 2 ^ Z.of_nat (rounded c (s + 1)) + 2 ^ Z.of_nat (rounded c k)) <= p ->
  well_formed x -> well_formed w -> well_formed b -> well_formed y -> Forall (lt 0%nat) (dims x) -> normalised x w b y ->
  Forall (layer_range k s is_rescale is_relu) (flat y) ->
  run honest_hint (table_rowsb c F) (batchnorm_layer p c is_rescale is_relu k (s + 1) (encoded p x) (encoded p w) (encoded p b)) =
  Some (encoded p (after_layer k is_rescale is_relu y)).
Proof. exact (batchnorm_run p c F k s is_rescale is_relu x w b y). Qed.
Print Assumptions C139_batchnorm_complete.
Theorem C139_batchnorm_defined x w b n ch rest : well_formed x -> well_formed w -> well_formed b -> Forall (lt 0%nat) (dims x) ->
  dims x = n :: ch :: rest -> dims w = [ch] -> dims b = [ch] -> exists y, well_formed y /\ normalised x w b y.
Proof. exact (normalised_exists x w b n ch rest). Qed.
Print Assumptions C139_batchnorm_defined.
(** A factor or summand that is not one vector of the channels is refused. *)
Theorem C139_batchnorm_refuses p c k n_bits is_rescale is_relu x w b n ch rest : dims x = n :: ch :: rest ->
  (List.length (dims w) <> 1 \/ List.length (flat w) <> ch \/ List.length (dims b) <> 1 \/ List.length (flat b) <> ch)%nat ->
  rejected p (batchnorm_layer p c is_rescale is_relu k n_bits x w b).
Proof. exact (batchnorm_refuses p c k n_bits is_rescale is_relu x w b n ch rest). Qed.
Print Assumptions C139_batchnorm_refuses.
Example C139_applies :
  run honest_hint (fun _ _ => true) (batchnorm_layer bn254_r 12 true false 1 36 (encoded bn254_r {| dims := [1; 2; 2]%nat; flat := [1; 2; 3; 4] |})
    (encoded bn254_r {| dims := [2]%nat; flat := [2; -4] |}) (encoded bn254_r {| dims := [2]%nat; flat := [10; 1] |})) =
  Some (encoded bn254_r {| dims := [1; 2; 2]%nat; flat := [6; 7; -6; -8] |}) /\ Forall (lt 0%nat) [1; 2; 2]%nat.
Proof. split; [vm_compute; reflexivity|repeat constructor]. Qed.

(** ** C140: an accepted proof of Neg carries the negated elements. *)
Theorem C140_neg_exact p x y : well_formed x -> well_formed y -> pointwise Z.opp x y -> yields p (neg_layer p (encoded p x)) (encoded p y).
Proof. exact (neg_yields p x y). Qed.
Print Assumptions C140_neg_exact.
Example C140_applies : pointwise Z.opp (one 3) (one (-3)) /\ neg_layer bn254_r (encoded bn254_r row) = Ret (encoded bn254_r {| dims := [2]%nat; flat := [-1; -5] |}).
Proof.
  split; [|vm_compute; reflexivity]. split; [reflexivity|]. intros c R. inversion R as [|x d c' ds L N]; subst. inversion N; subst.
  assert (x = 0%nat) by lia. subst. reflexivity.
Qed.
