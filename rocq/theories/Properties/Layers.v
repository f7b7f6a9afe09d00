(** C12-C16, C18: Greater/Less, TopK, exponential lookup, Pow, average pooling,
    Freivalds' check. *)
From Coq Require Import ZArith List Bool Znumtheory Lia.
From Verif Require Import Base.Pocklington Spec.Numbers Spec.Matrix Model.Builder Model.Gadgets
  Model.Compare Model.Layers Model.Freivalds Proofs.RangeCheck Proofs.Gadgets Proofs.Compare
  Proofs.Layers Proofs.Layers2 Proofs.ExpLookup Proofs.Freivalds Proofs.LayerProps.
Import ListNotations.
Local Open Scope Z_scope.

(** ** C12  Greater / Less *)

(** False for negative values even with an honest prover: Greater(-1, 0)
    outputs 1, on BN254 (254 bits) and on Goldilocks (64 bits). *)
Theorem C12_greater_negative_refuted :
  run honest_hint (fun _ _ => false) (greater_layer bn254_r 254 [enc bn254_r (-1)] [enc bn254_r 0]) = Some [1] /\
  run honest_hint (fun _ _ => false) (greater_layer goldilocks_p 64 [enc goldilocks_p (-1)] [enc goldilocks_p 0]) = Some [1].
Proof. exact greater_negative. Qed.
Print Assumptions C12_greater_negative_refuted.

(** False for small non-negative values with a dishonest prover: 0 > 1 and
    1 < 0 are accepted with output 1. *)
Theorem C12_greater_unsound_refuted T :
  accepts bn254_r T (greater_layer bn254_r 254 [0] [1]) [1] /\
  accepts goldilocks_p T (greater_layer goldilocks_p 64 [0] [1]) [1] /\
  accepts bn254_r T (less_layer bn254_r 254 [1] [0]) [1].
Proof. exact (greater_unsound T). Qed.
Print Assumptions C12_greater_unsound_refuted.

(** What is accepted, for every prime and bit count: the comparison of any two
    n-bit integers congruent to the operands. *)
Theorem C12_comparison_accepts_partial p n T x y r :
  prime p -> 0 <= x < p -> 0 <= y < p ->
  accepts p T (gt p n x y) r <->
  exists X Y, 0 <= X < 2 ^ Z.of_nat n /\ 0 <= Y < 2 ^ Z.of_nat n /\
    X mod p = x /\ Y mod p = y /\ r = if Y <? X then 1 else 0.
Proof. exact (fun Hp => gt_accepts p Hp T n x y r). Qed.
Print Assumptions C12_comparison_accepts_partial.

(** With an honest prover the layers compare non-negative values correctly. *)
Theorem C12_greater_honest_partial p n Tb a b :
  prime p -> p <= 2 ^ Z.of_nat n -> length a = length b ->
  (forall v, In v a \/ In v b -> 0 <= v < p) ->
  run honest_hint Tb (greater_layer p n a b) =
    Some (map (fun ab => if snd ab <? fst ab then 1 else 0) (combine a b)) /\
  run honest_hint Tb (less_layer p n a b) =
    Some (map (fun ab => if fst ab <? snd ab then 1 else 0) (combine a b)).
Proof. exact (layers_honest p n Tb a b). Qed.
Print Assumptions C12_greater_honest_partial.

(** With any prover, on values that have a single n-bit representative. *)
Theorem C12_greater_large_values_partial p n T x y r :
  prime p -> 0 <= x < p -> 0 <= y < p -> p <= 2 ^ Z.of_nat n < 2 * p ->
  2 ^ Z.of_nat n - p <= x -> 2 ^ Z.of_nat n - p <= y ->
  accepts p T (gt p n x y) r <-> r = if y <? x then 1 else 0.
Proof. exact (fun Hp => gt_unique p Hp T n x y r). Qed.
Print Assumptions C12_greater_large_values_partial.

Example C12_applies : prime goldilocks_p /\ goldilocks_p <= 2 ^ Z.of_nat 64 < 2 * goldilocks_p /\
  2 ^ Z.of_nat 64 - goldilocks_p <= 2 ^ 40 /\ 2 ^ 40 < goldilocks_p.
Proof. exact (conj goldilocks_prime compare_applies). Qed.

(** ** C13  TopK *)

(** False: for the lane [9;5;3] and k = 2 the outputs [3;9] (not descending, 5
    skipped) and for [5;3;1] the outputs [5;5] (one element twice) are accepted.
    Exact range checks (chunk 12, n_bits = 35, BN254). *)
Theorem C13_topk_refuted F scale :
  accepts bn254_r (table_rows 12 F) (topk_lane bn254_r 12 35 2 scale [9; 5; 3]) ([3; 9], [2; 0]) /\
  accepts bn254_r (table_rows 12 F) (topk_lane bn254_r 12 35 2 scale [5; 3; 1]) ([5; 5], [0; 0]).
Proof. exact (topk_refuted F scale). Qed.
Print Assumptions C13_topk_refuted.

(** False at the default width (n_bits = 64, so the check has 65 bits): the
    maximum can be skipped; top-1 of [5;3] accepts 3. *)
Theorem C13_topk_default_width_refuted F scale :
  accepts bn254_r (table_rows 12 F) (topk_lane bn254_r 12 64 1 scale [5; 3]) ([3], [1]).
Proof. exact (topk_default_refuted F scale). Qed.
Print Assumptions C13_topk_default_width_refuted.

(** What is accepted when the check width is a multiple of the chunk: k pairs
    (value, index) such that the lane holds the value at the index, and every
    lane element not output is at most the last output. *)
Theorem C13_topk_accepts_partial p c F s k scale lane V I :
  prime p -> (0 < c)%nat -> (0 < k)%nat -> (forall e, In e lane -> signed_fits s e) ->
  width_ok c (s + 2) -> ((s + 2) mod c = 0)%nat -> 2 * 2 ^ Z.of_nat (s + 2) <= p ->
  Z.of_nat (length lane) <= p -> width_ok c (topk_idx_bits (length lane)) ->
  2 ^ Z.of_nat (rounded c (topk_idx_bits (length lane))) <= p ->
  accepts p (table_rows c F) (topk_lane p c (s + 1) k scale (map (enc p) lane)) (V, I) <->
  exists vs is, V = map (enc p) vs /\ I = map Z.of_nat is /\ length vs = k /\ length is = k /\
    (forall j, (j < k)%nat -> (nth j is 0%nat < length lane)%nat /\ nth j vs 0 = nth (nth j is 0%nat) lane 0) /\
    (forall e, In e lane -> ~ In e vs -> e <= nth (k - 1) vs 0).
Proof. exact (topk_exact p c F s k scale lane V I). Qed.
Print Assumptions C13_topk_accepts_partial.

(** For k = 1 this is the full property: the output is the maximum and the
    index is a position of it. *)
Theorem C13_top1_exact p c F s scale lane v i :
  prime p -> (0 < c)%nat -> (forall e, In e lane -> signed_fits s e) ->
  width_ok c (s + 2) -> ((s + 2) mod c = 0)%nat -> 2 * 2 ^ Z.of_nat (s + 2) <= p ->
  Z.of_nat (length lane) <= p -> width_ok c (topk_idx_bits (length lane)) ->
  2 ^ Z.of_nat (rounded c (topk_idx_bits (length lane))) <= p ->
  accepts p (table_rows c F) (topk_lane p c (s + 1) 1 scale (map (enc p) lane)) ([v], [i]) <->
  exists m j, v = enc p m /\ i = Z.of_nat j /\ is_max lane m /\ (j < length lane)%nat /\ nth j lane 0 = m.
Proof. exact (top1_exact p c F s scale lane v i). Qed.
Print Assumptions C13_top1_exact.

Example C13_applies : (forall e, In e [-7; 9; 5] -> signed_fits 34 e) /\ width_ok 12 (34 + 2) /\
  ((34 + 2) mod 12 = 0)%nat /\ 2 * 2 ^ Z.of_nat (34 + 2) <= goldilocks_p /\
  width_ok 12 (topk_idx_bits (length [-7; 9; 5])) /\
  2 ^ Z.of_nat (rounded 12 (topk_idx_bits (length [-7; 9; 5]))) <= goldilocks_p /\ is_max [-7; 9; 5] 9.
Proof. exact topk_applies. Qed.

(** ** C14  Exponential lookup *)

(** What is accepted: for every table function [E], scale and input there is an
    accepted output for every remainder that passes the range check of
    bit_length(scale) bits; the output itself is not range checked. *)
Theorem C14_exp_accepts_partial p c tb E scale xf y :
  prime p -> (0 < c)%nat -> (2 <= tb)%nat ->
  width_ok c (tb / 2) -> width_ok c (bit_length scale) ->
  2 ^ Z.of_nat (rounded c (tb / 2)) <= p ->
  2 ^ Z.of_nat (rounded c (bit_length scale)) <= p -> 0 <= xf < p ->
  accepts p (table_rows c (exp_tables p tb E)) (verify_exp p c tb scale xf) y <->
  0 <= y < p /\ exists x r,
    - 2 ^ Z.of_nat (tb - 1) <= x < 2 ^ Z.of_nat (tb - 1) /\ xf = enc p x /\
    2 ^ Z.of_nat (bit_length scale) - 2 ^ Z.of_nat (rounded c (bit_length scale)) <= r
      < 2 ^ Z.of_nat (bit_length scale) /\
    enc p (y * scale + r) =
      enc p (E (x / 2 ^ Z.of_nat (tb / 2) * 2 ^ Z.of_nat (tb / 2)) * E (x mod 2 ^ Z.of_nat (tb / 2))).
Proof. exact (exp_accepts p c tb E scale xf y). Qed.
Print Assumptions C14_exp_accepts_partial.

(** So the output is not determined, even restricted to small outputs and with
    exact range checks: scale 2^11 (12-bit remainder), chunk 12, any table
    function with E(0) = 2^11 (that is, exp(0) = 1): input 0 accepts 2^11 and
    2^11 - 1. *)
Theorem C14_exp_not_determined_refuted E :
  E 0 = 2 ^ 11 ->
  accepts bn254_r (table_rows 12 (exp_tables bn254_r 24 E)) (verify_exp bn254_r 12 24 (2 ^ 11) 0) (2 ^ 11) /\
  accepts bn254_r (table_rows 12 (exp_tables bn254_r 24 E)) (verify_exp bn254_r 12 24 (2 ^ 11) 0) (2 ^ 11 - 1).
Proof. exact (exp_refuted E). Qed.
Print Assumptions C14_exp_not_determined_refuted.

(** ** C15  Pow *)

(** False: with a negative exponent every output that passes the final range
    check is accepted, whatever the base. *)
Theorem C15_pow_negative_refuted p c F kappa nb x e y :
  prime p -> (0 < c)%nat -> width_ok c kappa -> 2 ^ Z.of_nat (rounded c kappa) <= p ->
  2 ^ Z.of_nat kappa < p -> 0 <= y < p ->
  accepts p (table_rows c F) (pow_element p c kappa nb x (Zneg e)) y <->
  accepts p (table_rows c F) (range_check p c y nb) tt.
Proof.
  exact (fun Hp Hc Hw Hpk Hlt Hy => pow_negative_any p Hp c Hc F kappa nb Hw Hpk x e y Hlt Hy).
Qed.
Print Assumptions C15_pow_negative_refuted.

(** Squaring, exact range checks: floor(x^2 / scale) or that minus one. *)
Theorem C15_pow_square_partial p c F kappa nb x y :
  prime p -> (0 < c)%nat -> (0 < kappa)%nat -> width_ok c kappa -> width_ok c nb ->
  (kappa mod c = 0)%nat -> (nb mod c = 0)%nat ->
  0 <= x -> x * x / 2 ^ Z.of_nat kappa < 2 ^ Z.of_nat nb ->
  x * x + 2 * 2 ^ Z.of_nat kappa + 2 ^ Z.of_nat kappa * 2 ^ Z.of_nat nb <= p ->
  accepts p (table_rows c F) (pow_element p c kappa nb (enc p x) 2) y <->
  y = x * x / 2 ^ Z.of_nat kappa \/
  (y = x * x / 2 ^ Z.of_nat kappa - 1 /\ 0 <= y /\
   (x * x) mod 2 ^ Z.of_nat kappa <= 2 ^ Z.of_nat kappa - 2).
Proof. exact (pow_square_exact p c F kappa nb x y). Qed.
Print Assumptions C15_pow_square_partial.

Example C15_applies : width_ok 12 12 /\ width_ok 12 24 /\ (24 mod 12 = 0)%nat /\
  5000 * 5000 / 2 ^ Z.of_nat 12 = 6103 /\ 6103 < 2 ^ Z.of_nat 24 /\
  5000 * 5000 + 2 * 2 ^ Z.of_nat 12 + 2 ^ Z.of_nat 12 * 2 ^ Z.of_nat 24 <= goldilocks_p.
Proof. exact pow_applies. Qed.

(** ** C16  Average pooling and ReduceMean *)

(** AveragePool / GlobalAveragePool: exact rounding whenever the residual width
    is a multiple of the chunk size, or the window size is a power of two. *)
Theorem C16_average_pool_exact p c F nb xs y :
  prime p -> (0 < c)%nat -> (2 <= length xs)%nat -> width_ok c nb -> width_ok c (ceil_log2 (length xs)) ->
  2 * Z.of_nat (length xs) * 2 ^ Z.of_nat (rounded c nb) + 2 * Z.of_nat (length xs) +
    2 ^ Z.of_nat (rounded c (ceil_log2 (length xs))) <= p ->
  (forall x, In x xs -> 0 <= x < 2 ^ Z.of_nat nb) ->
  (ceil_log2 (length xs) mod c = 0)%nat \/ Z.of_nat (length xs) = 2 ^ Z.of_nat (ceil_log2 (length xs)) ->
  accepts p (table_rows c F) (avgpool_window p c nb (map (enc p) xs)) y <-> y = enc p (mean_round xs).
Proof. exact (fun Hp Hc Hn Hw Hk Hb Hx => avgpool_exact p Hp c Hc F nb xs Hn Hw Hk Hb Hx y). Qed.
Print Assumptions C16_average_pool_exact.

(** False for other window sizes: a 3x3 window (n = 9) of ones, default
    parameters, accepts 0 and 2 as well as 1. *)
Theorem C16_average_pool_refuted F :
  accepts bn254_r (table_rows 12 F) (avgpool_window bn254_r 12 64 (repeat 1 9)) 1 /\
  accepts bn254_r (table_rows 12 F) (avgpool_window bn254_r 12 64 (repeat 1 9)) 0 /\
  accepts bn254_r (table_rows 12 F) (avgpool_window bn254_r 12 64 (repeat 1 9)) 2.
Proof. exact (avgpool_refuted F). Qed.
Print Assumptions C16_average_pool_refuted.

(** All window sizes: the accepted outputs have a residual in [n - 2^k, 2^k - 1],
    so they differ from the mean by less than two units. *)
Theorem C16_average_pool_values_partial p c F nb xs y :
  prime p -> (0 < c)%nat -> (2 <= length xs)%nat -> width_ok c nb -> width_ok c (ceil_log2 (length xs)) ->
  2 * Z.of_nat (length xs) * 2 ^ Z.of_nat (rounded c nb) + 2 * Z.of_nat (length xs) +
    2 ^ Z.of_nat (rounded c (ceil_log2 (length xs))) <= p ->
  (forall x, In x xs -> 0 <= x < 2 ^ Z.of_nat nb) ->
  accepts p (table_rows c F) (avgpool_window p c nb (map (enc p) xs)) y ->
  exists Y, y = enc p Y /\ - Z.of_nat (length xs) < zsum xs - Z.of_nat (length xs) * Y + Z.of_nat (length xs) / 2
    < 2 * Z.of_nat (length xs).
Proof. exact (avgpool_close p c F nb xs y). Qed.
Print Assumptions C16_average_pool_values_partial.

(** ReduceMean: exact for two or more values when the remainder width is a
    multiple of the chunk size; values may be negative. *)
Theorem C16_reduce_mean_exact p c F nb xs y :
  prime p -> (0 < c)%nat -> (1 <= length xs)%nat -> (1 <= nb)%nat -> width_ok c nb ->
  width_ok c (reduce_mean_bits (length xs)) ->
  3 * Z.of_nat (length xs) * 2 ^ Z.of_nat (rounded c nb) + 2 * Z.of_nat (length xs) +
    2 * 2 ^ Z.of_nat (rounded c (reduce_mean_bits (length xs))) <= p ->
  (forall x, In x xs -> - 2 ^ Z.of_nat (nb - 1) <= x < 2 ^ Z.of_nat (nb - 1)) ->
  (2 <= length xs)%nat -> (reduce_mean_bits (length xs) mod c = 0)%nat ->
  accepts p (table_rows c F) (reduce_mean_out p c nb (length xs) (map (enc p) xs)) y <-> y = enc p (mean_round xs).
Proof.
  exact (fun Hp Hc Hn Hnb Hw Hk Hb Hx => reduce_mean_exact p Hp c Hc F nb xs Hn Hnb Hw Hk Hb Hx y).
Qed.
Print Assumptions C16_reduce_mean_exact.

(** False at the default parameters: the mean of four zeros may be 1000, and
    the mean of one value may be that value minus one even with exact checks. *)
Theorem C16_reduce_mean_refuted F :
  accepts bn254_r (table_rows 12 F) (reduce_mean_out bn254_r 12 64 4 (repeat 0 4)) 1000 /\
  accepts bn254_r (table_rows 1 F) (reduce_mean_out bn254_r 1 64 1 [7]) 7 /\
  accepts bn254_r (table_rows 1 F) (reduce_mean_out bn254_r 1 64 1 [7]) 6.
Proof. exact (reduce_mean_refuted F). Qed.
Print Assumptions C16_reduce_mean_refuted.

(** Witness generation fails on every negative biased sum. *)
Theorem C16_reduce_mean_negative_incomplete_refuted :
  run honest_hint (table_rowsb 12 (fun _ => [])) (reduce_mean_out bn254_r 12 64 2 (map (enc bn254_r) [-3; -5])) = None /\
  mean_round [-3; -5] = -4.
Proof. exact reduce_mean_incomplete. Qed.
Print Assumptions C16_reduce_mean_negative_incomplete_refuted.

Example C16_applies : width_ok 12 64 /\ width_ok 12 (ceil_log2 (length (repeat 1 4))) /\
  2 * Z.of_nat (length (repeat 1 4)) * 2 ^ Z.of_nat (rounded 12 64) + 2 * Z.of_nat (length (repeat 1 4)) +
    2 ^ Z.of_nat (rounded 12 (ceil_log2 (length (repeat 1 4)))) <= bn254_r /\
  Z.of_nat (length (repeat 1 4)) = 2 ^ Z.of_nat (ceil_log2 (length (repeat 1 4))) /\ mean_round [3; 5; 7; 8] = 6 /\
  width_ok 2 64 /\ width_ok 2 (reduce_mean_bits 4) /\ (reduce_mean_bits 4 mod 2 = 0)%nat /\
  mean_round [-3; -5; -7; 0] = -4.
Proof. exact avg_applies. Qed.

(** ** C18  Freivalds' check *)

(** A correct product is accepted for all challenge vectors. *)
Theorem C18_freivalds_complete p T l m n A B C xs :
  prime p -> is_matrix p l m A -> is_matrix p m n B -> is_matrix p l n C ->
  is_product p l m n A B C -> xs <> [] -> (forall x, In x xs -> length x = n) ->
  accepts p T (freivalds p {| m_rows := l; m_cols := m; m_data := A |} {| m_rows := m; m_cols := n; m_data := B |}
                 {| m_rows := l; m_cols := n; m_data := C |} xs) tt.
Proof. exact (fun Hp HA HB HC HP => freivalds_complete p Hp l m n A B C HA HB HC T xs HP). Qed.
Print Assumptions C18_freivalds_complete.

(** A wrong product is accepted, with k repetitions, for at most a p^-k
    fraction of the k-tuples of challenge vectors. *)
Theorem C18_freivalds_sound p T l m n A B C k :
  prime p -> is_matrix p l m A -> is_matrix p m n B -> is_matrix p l n C ->
  (0 < k)%nat -> ~ is_product p l m n A B C ->
  exists bad : list (list Z) -> bool,
    (forall xs, length xs = k ->
       (bad xs = true <->
        accepts p T (freivalds p {| m_rows := l; m_cols := m; m_data := A |} {| m_rows := m; m_cols := n; m_data := B |}
                       {| m_rows := l; m_cols := n; m_data := C |} xs) tt)) /\
    Z.of_nat (length (filter bad (tuples (tuples (residues p) n) k))) * p ^ Z.of_nat k <= (p ^ Z.of_nat n) ^ Z.of_nat k.
Proof. exact (fun Hp HA HB HC Hk HP => freivalds_sound p Hp l m n A B C HA HB HC T k Hk HP). Qed.
Print Assumptions C18_freivalds_sound.

(** The fully constrained product is the product. *)
Theorem C18_matrix_multiplication p T l m n A B M :
  0 < p -> is_matrix p l m A -> is_matrix p m n B ->
  accepts p T (matrix_multiplication p {| m_rows := l; m_cols := m; m_data := A |}
                 {| m_rows := m; m_cols := n; m_data := B |}) M <->
  exists C, M = {| m_rows := l; m_cols := n; m_data := C |} /\ is_matrix p l n C /\ is_product p l m n A B C.
Proof. exact (matmul_spec p l m n A B T M). Qed.
Print Assumptions C18_matrix_multiplication.

Example C18_applies : is_matrix 7 2 2 [[1; 2]; [3; 4]] /\ is_matrix 7 2 1 [[5]; [6]] /\ is_matrix 7 2 1 [[3]; [4]] /\
  is_product 7 2 2 1 [[1; 2]; [3; 4]] [[5]; [6]] [[3]; [4]] /\
  ~ is_product 7 2 2 1 [[1; 2]; [3; 4]] [[5]; [6]] [[3]; [5]].
Proof. exact freivalds_applies. Qed.

(** Operands whose dimensions do not fit, and runs without a challenge, are
    rejected. *)
Theorem C18_dimensions_checked p T A B C xs M :
  (accepts p T (freivalds p A B C xs) tt ->
     m_cols A = m_rows B /\ m_rows A = m_rows C /\ m_cols B = m_cols C /\ xs <> []) /\
  (accepts p T (matrix_multiplication p A B) M -> m_cols A = m_rows B).
Proof. exact (conj (freivalds_shapes p T A B C xs) (matmul_shapes p T A B M)). Qed.
Print Assumptions C18_dimensions_checked.
