(** C117-C121: the bound analysis of the quantizer, the scale, the folded batch normalisation and
    the rewritten powers.  The vocabulary is in Spec/RealOps.v and Spec/Widths.v; the witnesses are
    written out in Proofs/Bounds6.v, Bounds7.v and Bounds8.v.  These theorems are about real
    numbers: they rest on the three axioms of Coq's library of reals. *)
From Coq Require Import List Arith Bool Reals String ZArith Znumtheory Lia Lra.
From Verif Require Import Spec.Shapes Spec.Tensors Spec.RealOps Spec.Widths Spec.Numbers Model.Bounds Model.Builder Model.Gadgets
  Proofs.RangeCheck Proofs.Bounds6 Proofs.Bounds7 Proofs.Bounds8.
From Verif Require Proofs.Bounds5 Proofs.Bounds.
Import ListNotations.
Local Open Scope string_scope.
Local Open Scope nat_scope.
Local Open Scope R_scope.

(** C117.  Widths that hold the values.  True of the models whose layers are all [supported]: this
    leaves out, among others, Max and Min with a larger second operand, divisions by runtime
    tensors, Constant nodes with entries above 1, and a constant vector on the left of MatMul. *)
Theorem C117_bounds_hold_partial alpha shapes input_names layers env bounds n_bits : 1 <= alpha ->
  consistent input_names layers env -> Forall (supported alpha shapes env) layers ->
  compute_bounds alpha shapes input_names layers = Some (bounds, n_bits) ->
  forall l j s t, In l layers -> nth_error (outputs (body l)) j = Some s -> env s = Some t ->
  exists b, map_get s bounds = Some b /\ Forall (fun v => Rabs v <= b) (flat t).
Proof. exact (fun Ha C A H => proj1 (Bounds5.bounds_hold alpha shapes input_names layers env bounds n_bits Ha (proj1 C) (proj2 C) A H)). Qed.
Print Assumptions C117_bounds_hold_partial.

Theorem C117_widths_partial : widths_suffice supported.
Proof. exact widths. Qed.
Print Assumptions C117_widths_partial.

(** The width is the least one (from 2 up) that holds the bound. *)
Theorem C117_width_least_partial alpha bound : Rabs (alpha * bound) <= 2 ^ (compute_n_bits alpha bound - 1) /\
  forall k, (2 <= k)%nat -> Rabs (alpha * bound) <= 2 ^ (k - 1) -> (compute_n_bits alpha bound <= k)%nat.
Proof. exact (conj (Bounds.n_bits_hold alpha bound) (n_bits_least alpha bound)). Qed.
Print Assumptions C117_width_least_partial.

(** A model that meets the hypotheses: x -> 32 x, 24 bits. *)
Example C117_applies : consistent ["x"] [gemm32] env32 /\ Forall (supported (2 ^ 18) (fun _ => None) env32) [gemm32] /\
  compute_bounds (2 ^ 18) (fun _ => None) ["x"] [gemm32] = Some ([("y", 32); ("x", 1)], [("g", 24%nat)]).
Proof.
  destruct power_of_two as (A & B & C & _). split; [exact A|]. split; [constructor; [exact B|constructor]|exact C].
Qed.

Theorem C117_max_refuted : ~ widths_suffice (fun alpha shapes env l => kind (body l) = Max \/ supported alpha shapes env l).
Proof. exact max_narrow. Qed.
Print Assumptions C117_max_refuted.
Theorem C117_constant_node_refuted : ~ widths_suffice (fun alpha shapes env l => kind (body l) = Constant \/ supported alpha shapes env l).
Proof. exact const_narrow. Qed.
Print Assumptions C117_constant_node_refuted.
Theorem C117_vector_matmul_refuted : ~ widths_suffice (fun alpha shapes env l => kind (body l) = MatMul \/ supported alpha shapes env l).
Proof. exact vm_narrow. Qed.
Print Assumptions C117_vector_matmul_refuted.
Theorem C117_runtime_division_refuted : ~ widths_suffice (fun alpha shapes env l => kind (body l) = Div \/ supported alpha shapes env l).
Proof. exact div_narrow. Qed.
Print Assumptions C117_runtime_division_refuted.
(** Two supported layers with one name share the width of the second. *)
Theorem C117_shared_name_refuted : exists n_bits,
  consistent ["x"] twice_layers twice_env /\ Forall (supported (2 ^ 18) (fun _ => None) twice_env) twice_layers /\
  option_map snd (compute_bounds (2 ^ 18) (fun _ => None) ["x"] twice_layers) = Some n_bits /\
  map_get "" n_bits = Some 19%nat /\
  ~ bits_hold (2 ^ 18) twice_env (mk Mul ["x"; "c"] ["y"]) 19.
Proof. exact twice_narrow. Qed.
Print Assumptions C117_shared_name_refuted.

(** C118.  The honest prover and the chosen width.  [xs] are the accumulators of the layer, [vs]
    the real values they stand for, [err] what rounding the weights and the inputs adds. *)
Theorem C118_honest_partial p c F kappa bound err is_relu xs vs :
  let n := compute_n_bits (2 ^ kappa) bound in
  prime p -> (0 < c)%nat -> (kappa < 32)%nat -> (n <= 64)%nat -> width_ok c kappa -> width_ok c n ->
  (2 * (2 ^ Z.of_nat kappa * 2 ^ Z.of_nat (rounded c n) + 2 ^ Z.of_nat (rounded c kappa)) <= p)%Z ->
  2 ^ kappa * bound + err / 2 ^ kappa < 2 ^ (n - 1) ->
  Forall2 (fun x v => Rabs v <= bound /\ Rabs (IZR x - 2 ^ kappa * 2 ^ kappa * v) <= err) xs vs ->
  run honest_hint (table_rowsb c F) (maybe_rescale p c (map (enc p) xs) true is_relu kappa n) =
  Some (map (fun x => enc p (layer_output kappa true is_relu x)) xs).
Proof. exact (honest_fits p c F kappa bound err is_relu xs vs). Qed.
Print Assumptions C118_honest_partial.

Example C118_applies : compute_n_bits (2 ^ 18) 30 = 24%nat /\ width_ok 12 18 /\ width_ok 12 24 /\
  (2 * (2 ^ Z.of_nat 18 * 2 ^ Z.of_nat (rounded 12 24) + 2 ^ Z.of_nat (rounded 12 18)) <= bn254_r)%Z /\
  2 ^ 18 * 30 + 2 ^ 20 / 2 ^ 18 < 2 ^ (24 - 1) /\
  Forall2 (fun x v => Rabs v <= 30 /\ Rabs (IZR x - 2 ^ 18 * 2 ^ 18 * v) <= 2 ^ 20) [(30 * 2 ^ 36 + 5)%Z] [30].
Proof.
  split; [rewrite (n_bits_eq _ _ 22); [reflexivity|rewrite Rabs_right; cbn; lra]|].
  split; [unfold width_ok; lia|]. split; [unfold width_ok; lia|].
  split; [vm_compute; intros H; discriminate H|]. split; [cbn; lra|].
  constructor; [|constructor]. split; [rewrite Rabs_right; lra|].
  replace (IZR (30 * 2 ^ 36 + 5) - 2 ^ 18 * 2 ^ 18 * 30) with 5 by (cbn; lra). rewrite Rabs_right; cbn; lra.
Qed.

(** A weight of 32 and the input 1: the value is exactly the bound, 2^18 * 32 = 2^23 is exactly
    what 24 bits do not hold, and the honest run fails. *)
Theorem C118_power_of_two_refuted : consistent ["x"] [gemm32] env32 /\ supported (2 ^ 18) (fun _ => None) env32 gemm32 /\
  compute_bounds (2 ^ 18) (fun _ => None) ["x"] [gemm32] = Some ([("y", 32); ("x", 1)], [("g", 24%nat)]) /\
  run honest_hint (table_rowsb 12 (fun _ => [])) (maybe_rescale bn254_r 12 [enc bn254_r (2 ^ 18 * (32 * 2 ^ 18))] true false 18 24) = None.
Proof. exact power_of_two. Qed.
Print Assumptions C118_power_of_two_refuted.

(** C119.  The scale for a field of [n_bits] bits.  True up to the first rescaled layer. *)
Theorem C119_first_layer_partial n_bits shapes input_names pre l rest env max_bound : (1 <= n_bits)%nat ->
  consistent input_names (pre ++ l :: rest) env ->
  Forall (supported (2 ^ 18) shapes env) (pre ++ [l]) ->
  Forall (fun l => needs_rescale (kind (body l)) = false /\ kind (body l) <> TopK) pre -> needs_rescale (kind (body l)) = true ->
  compute_max_bound shapes input_names (pre ++ l :: rest) = Some max_bound -> max_bound <= 2 ^ (n_bits - 1) ->
  accumulators_fit n_bits max_bound env l.
Proof. exact (first_accumulators n_bits shapes input_names pre l rest env max_bound). Qed.
Print Assumptions C119_first_layer_partial.

Theorem C119_chain_refuted : consistent ["x"] chain chain_env /\ Forall (supported (2 ^ 18) (fun _ => None) chain_env) chain /\
  compute_max_bound (fun _ => None) ["x"] chain = Some (2 ^ 20) /\ max_safe_exponent 63 (2 ^ 20) = 21%nat /\
  exists l v, In l chain /\ needs_rescale (kind (body l)) = true /\
    each_output chain_env (body l) (fun _ u => u = v) /\ 2 ^ 21 * 2 ^ 21 * v = 2 ^ 82.
Proof. exact chain_overflows. Qed.
Print Assumptions C119_chain_refuted.

Example C119_applies : exists l rest, chain = ([] ++ l :: rest)%list /\ needs_rescale (kind (body l)) = true /\ 2 ^ 20 <= 2 ^ (63 - 1).
Proof. eexists _, _. split; [reflexivity|]. split; [reflexivity|]. apply Rle_pow; [lra|lia]. Qed.

(** C120.  The folded batch normalisation. *)
Theorem C120_fold_exact eps scale bias mean var mul add : fold_batchnorm eps scale bias mean var = Some (mul, add) ->
  let c := List.length scale in
  List.length bias = c /\ List.length mean = c /\ List.length var = c /\ List.length mul = c /\ List.length add = c /\
  forall i x, (i < c)%nat -> 0 < nth i var 0 + eps /\
    nth i mul 0 * x + nth i add 0 = nth i scale 0 * ((x - nth i mean 0) / sqrt (nth i var 0 + eps)) + nth i bias 0.
Proof. exact (fold_exact eps scale bias mean var mul add). Qed.
Print Assumptions C120_fold_exact.
Theorem C120_fold_fails eps scale bias mean var : fold_batchnorm eps scale bias mean var = None <->
  List.length bias <> List.length scale \/ List.length mean <> List.length scale \/ List.length var <> List.length scale \/
  exists v, In v var /\ v + eps <= 0.
Proof. exact (fold_fails eps scale bias mean var). Qed.
Print Assumptions C120_fold_fails.
Example C120_applies : exists mul add, fold_batchnorm 1 [2] [5] [7] [3] = Some ([mul], [add]) /\ mul = 1 /\ add = -2.
Proof.
  unfold fold_batchnorm. cbn. destruct (Rlt_dec 0 (3 + 1)) as [|N]; [cbn|exfalso; apply N; lra].
  eexists _, _. split; [reflexivity|]. replace (3 + 1) with (2 * 2) by lra. rewrite sqrt_square by lra. lra.
Qed.

(** C121.  Powers that become square roots. *)
Theorem C121_half_exact_partial x : 0 < x -> Rpower x (1 / 2) = sqrt x.
Proof. exact (sqrt_half x). Qed.
Print Assumptions C121_half_exact_partial.
Theorem C121_close_partial es x : becomes_sqrt es = true -> 0 < x ->
  exists e, es = [e] /\ Rabs (ln (Rpower x e) - ln (sqrt x)) <= / 10 ^ 9 * Rabs (ln x).
Proof. exact (sqrt_close es x). Qed.
Print Assumptions C121_close_partial.
(** Other exponents are rewritten too, and then the result is wrong for every input but 1. *)
Theorem C121_other_exponents_refuted : becomes_sqrt [1 / 2 + / 10 ^ 10] = true /\
  forall e, becomes_sqrt [e] = true -> e <> 1 / 2 -> forall x, 0 < x -> Rpower x e = sqrt x -> x = 1.
Proof. exact (conj sqrt_near sqrt_never). Qed.
Print Assumptions C121_other_exponents_refuted.
Example C121_applies : becomes_sqrt [1 / 2] = true.
Proof.
  unfold becomes_sqrt. destruct (Rlt_dec _ _) as [|N]; [reflexivity|]. exfalso. apply N.
  rewrite Rminus_diag_eq, Rabs_R0 by reflexivity. apply Rinv_0_lt_compat, pow_lt. lra.
Qed.
