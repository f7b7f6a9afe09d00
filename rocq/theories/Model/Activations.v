(** Constraint systems of the activation and normalisation layers.
    Paths are relative to /repo/rust/jstprove_circuits/src/circuit_functions.
    Each [*_element] is the body of the loop over the elements of the input
    tensor (a lane for Softmax and LayerNormalization); the layer runs it for
    every element and keeps the shape.  [kappa] is scale_exponent, the scale is
    2^kappa, [nb] is n_bits, [tb] the width of the exponential table.  Not
    modelled: names of tensors, shapes, the arity checks of [build].
    Products of u64 values that do not fit (a panic in debug builds) are not
    modelled: scale_exponent < 32 is assumed by the citing comments where
    scale * scale is computed. *)
From Coq Require Import ZArith List Bool Lia.
From Verif Require Import Model.Builder Model.Gadgets Model.Layers.
Import ListNotations.
Local Open Scope Z_scope.

(** v.next_power_of_two().trailing_zeros() for a positive u64 [v] *)
Definition np2_bits (v : Z) : nat := bit_length (v - 1).

Section Activations.
Variable p : Z.
Variable c : nat.

(* ------------------------------------------------------------------ *)
(** ** Sqrt, layers/sqrt.rs:50-76 *)
Definition sqrt_element (kappa nb : nat) (x : Z) : prog Z :=
  let scale := const p (pow2 kappa) in
  let* _ := range_check p c x nb in
  let* y := hint1 (HCustom 10) [x; scale] in
  let* _ := range_check p c y nb in
  let remainder := sub p (mul p x scale) (mul p y y) in
  let* _ := range_check p c remainder (nb + 1) in
  let upper := sub p (add p y y) remainder in
  let* _ := range_check p c upper (nb + 1) in
  Ret y.

(* ------------------------------------------------------------------ *)
(** ** LeakyRelu, layers/leaky_relu.rs:30-85; [alpha] is alpha_q *)
Definition leaky_relu_element (kappa nb : nat) (alpha x : Z) : prog Z :=
  if (nb =? 0)%nat then Fail 23 else
  let s := (nb - 1)%nat in
  let* offset := shift_ctx p s in
  let* ctx := rescaling_context p kappa s in
  let* relu_x := constrained_relu p c s offset x in
  let neg_part := sub p x relu_x in
  let product := mul p (const p alpha) neg_part in
  let* alpha_neg := div_pow2 p c product (rc_alpha ctx) (rc_scaled ctx) (rc_kappa ctx) (rc_s ctx) (rc_shift ctx) in
  Ret (add p relu_x alpha_neg).

(* ------------------------------------------------------------------ *)
(** ** HardSwish, layers/hardswish.rs:42-94 *)
Definition hardswish_element (kappa : nat) (x : Z) : prog Z :=
  let alpha := pow2 kappa in
  let scale := const p alpha in
  let* offset := shift_ctx p (kappa + 3) in
  let tol := 6 * alpha in
  let tol_bits := np2_bits (2 * tol) in
  let* y := hint1 (HCustom 11) [x; scale] in
  let* clipped := constrained_clip p c (kappa + 3) offset (add p x (const p (3 * alpha)))
                    (Some (const p 0)) (Some (const p (6 * alpha))) in
  let product := mul p x clipped in
  let six_y_alpha := mul p (mul p (const p 6) y) scale in
  let shifted := add p (sub p six_y_alpha product) (const p tol) in
  let* _ := range_check p c shifted tol_bits in
  let* _ := range_check p c (sub p (const p (2 * tol)) shifted) tol_bits in
  Ret y.

(* ------------------------------------------------------------------ *)
(** ** Sin and Cos, layers/sin.rs:26-90 and layers/cos.rs:26-90: table [TFun 0]
    is the function's table over [tw]-bit signed keys *)
Definition trig_element (kappa nb tw : nat) (x : Z) : prog Z :=
  let scale := const p (pow2 kappa) in
  let half := pow2 (tw - 1) in
  let s := (Nat.max tw nb + 4)%nat in
  let* offset := shift_ctx p s in
  let* clamped := constrained_clip p c s offset x (Some (const p (- half))) (Some (const p (half - 1))) in
  let* y := hint1 (HCustom 12) [clamped; scale] in
  let* _ := lookup (TFun 0) [clamped; y] in
  let* _ := range_check p c (add p y scale) (nb + 1) in
  let* _ := range_check p c (sub p scale y) (nb + 1) in
  Ret y.
(** layers/sin.rs:141-143, layers/cos.rs:141-143: the width of the table *)
Definition trig_table_bits (kappa nb : nat) : nat := Nat.min (Nat.min (kappa + 3) 20) nb.
Definition trig_tables (tw : nat) (f : Z -> Z) (i : nat) : list (list Z) := signed_table p f tw.

(* ------------------------------------------------------------------ *)
(** ** Sigmoid, layers/sigmoid.rs:37-83 (kappa < 32: scale * scale is a u64) *)
Definition sigmoid_element (kappa nb tb : nat) (x : Z) : prog Z :=
  let scale := const p (pow2 kappa) in
  let tol := 2 * pow2 kappa in
  let tol_bits := np2_bits (2 * tol) in
  let* y := hint1 (HCustom 14) [x; scale] in
  let* _ := range_check p c y nb in
  let* _ := range_check p c (sub p scale y) nb in
  let* exp_neg_x := verify_exp p c tb (pow2 kappa) (sub p (const p 0) x) in
  let denom := add p scale exp_neg_x in
  let lhs := mul p y denom in
  let diff := sub p lhs (const p (pow2 kappa * pow2 kappa)) in
  let* _ := range_check p c (add p diff (const p tol)) tol_bits in
  Ret y.

(* ------------------------------------------------------------------ *)
(** ** Tanh, layers/tanh.rs:38-88 *)
Definition tanh_element (kappa nb tb : nat) (x : Z) : prog Z :=
  let scale := const p (pow2 kappa) in
  let tol := 3 * pow2 kappa in
  let tol_bits := np2_bits (2 * tol) in
  let* y := hint1 (HCustom 15) [x; scale] in
  let* _ := range_check p c (add p y scale) (nb + 1) in
  let* _ := range_check p c (sub p scale y) (nb + 1) in
  let* exp_2x := verify_exp p c tb (pow2 kappa) (add p x x) in
  let denom := add p exp_2x scale in
  let lhs := mul p y denom in
  let rhs := mul p (sub p exp_2x scale) scale in
  let shifted := add p (sub p lhs rhs) (const p tol) in
  let* _ := range_check p c shifted tol_bits in
  let* _ := range_check p c (sub p (const p (2 * tol)) shifted) tol_bits in
  Ret y.

(* ------------------------------------------------------------------ *)
(** ** Log, layers/log.rs:39-88 *)
Definition log_element (kappa nb tb : nat) (x : Z) : prog Z :=
  let scale := const p (pow2 kappa) in
  let tol := 2 * pow2 kappa in
  let tol_bits := (np2_bits (2 * tol) + 1)%nat in
  let* y := hint1 (HCustom 19) [x; scale] in
  let* _ := range_check p c x nb in
  let* _ := range_check p c (sub p x (const p 1)) nb in
  let* exp_y := verify_exp p c tb (pow2 kappa) y in
  let diff := sub p (mul p exp_y scale) (mul p x scale) in
  let shifted := add p diff (const p tol) in
  let* _ := range_check p c shifted tol_bits in
  let* _ := range_check p c (sub p (const p (2 * tol)) shifted) tol_bits in
  Ret y.

(* ------------------------------------------------------------------ *)
(** The quotient of [num] by [den] with a range-checked remainder and an
    unchecked quotient: erf_div_rem (layers/erf.rs:35-50), and the same four
    lines inlined three times in layers/gelu.rs:79-117 *)
Definition div_rem (num den : Z) (rem_bits : nat) : prog Z :=
  let* q := unconstrained_int_div num den in
  let* r := unconstrained_mod num den in
  let* _ := assert_eq (add p (mul p q den) r) num in
  let* _ := range_check p c r rem_bits in
  Ret q.

(** ** Gelu, layers/gelu.rs:44-136 (kappa < 32, gelu.rs:177-186).  [coef] and
    [outer] are the quantised constants coef_q and outer_coef_q (gelu.rs:53-57,
    computed in f64). *)
Definition gelu_element (kappa tb : nat) (coef outer x : Z) : prog Z :=
  let scale := const p (pow2 kappa) in
  let scale_sq := const p (pow2 kappa * pow2 kappa) in
  let tol := 5 * pow2 kappa in
  let tol_bits := np2_bits (2 * tol) in
  let* y := hint1 (HCustom 16) [x; scale] in
  let* x_sq_div := div_rem (mul p x x) scale kappa in
  let* coef_x3_div := div_rem (mul p (const p coef) (mul p x_sq_div x)) scale_sq (2 * kappa) in
  let inner := add p x coef_x3_div in
  let* z := div_rem (mul p (const p outer) inner) scale kappa in
  let* exp_neg_z := verify_exp p c tb (pow2 kappa) (sub p (const p 0) z) in
  let denom := add p scale exp_neg_z in
  let diff := sub p (mul p y denom) (mul p x scale) in
  let* _ := range_check p c (add p diff (const p tol)) tol_bits in
  Ret y.

(** ** Erf, layers/erf.rs:60-220.  The constants (erf.rs:81-86, computed in
    f64) are a parameter. *)
Record erf_consts := { e_p : Z; e_a1 : Z; e_a2 : Z; e_a3 : Z; e_a4 : Z; e_a5 : Z }.

(** |x| and its sign, erf.rs:125-135: the pair (|x|, sign) *)
Definition erf_abs (nb : nat) (x : Z) : prog (Z * Z) :=
  let* h := hintn (HCustom 18) [x] 2 in
  let abs_x := nth 0 h 0 in
  let is_nonneg := nth 1 h 0 in
  let* _ := assert_bool p is_nonneg in
  let sign := sub p (add p is_nonneg is_nonneg) (const p 1) in
  let* _ := assert_eq (mul p sign abs_x) x in
  let* _ := range_check p c abs_x nb in
  Ret (abs_x, sign).

(** The value the polynomial and the exponential give for |x|, erf.rs:137-204 *)
Definition erf_poly (kappa nb tb : nat) (k : erf_consts) (abs_x : Z) : prog Z :=
  let scale := const p (pow2 kappa) in
  let scale_sq := const p (pow2 kappa * pow2 kappa) in
  let t_tol := 2 * pow2 kappa in
  let t_tol_bits := np2_bits (2 * t_tol) in
  let* p_scaled := div_rem (mul p (const p (e_p k)) abs_x) scale kappa in
  let denom := add p scale p_scaled in
  let* t := div_rem scale_sq denom (kappa + 1) in
  let* _ := range_check p c t nb in
  let t_shifted := add p (sub p (mul p t denom) scale_sq) (const p t_tol) in
  let* _ := range_check p c t_shifted t_tol_bits in
  let* _ := range_check p c (sub p (const p (2 * t_tol)) t_shifted) t_tol_bits in
  let* t_sq := div_rem (mul p t t) scale kappa in
  let* a5_tsq := div_rem (mul p (const p (e_a5 k)) t_sq) scale kappa in
  let pos_inner2 := add p (const p (e_a3 k)) a5_tsq in
  let* pi2_tsq := div_rem (mul p pos_inner2 t_sq) scale kappa in
  let pos_inner1 := add p (const p (e_a1 k)) pi2_tsq in
  let* pos_val := div_rem (mul p t pos_inner1) scale kappa in
  let* a4_tsq := div_rem (mul p (const p (e_a4 k)) t_sq) scale kappa in
  let neg_inner := add p (const p (e_a2 k)) a4_tsq in
  let* neg_val := div_rem (mul p neg_inner t_sq) scale kappa in
  let* x_sq := div_rem (mul p abs_x abs_x) scale kappa in
  let* exp_neg_x_sq := verify_exp p c tb (pow2 kappa) (sub p (const p 0) x_sq) in
  let* pos_exp := div_rem (mul p pos_val exp_neg_x_sq) scale kappa in
  let* neg_exp := div_rem (mul p neg_val exp_neg_x_sq) scale kappa in
  Ret (add p (sub p scale pos_exp) neg_exp).

Definition erf_element (kappa nb tb : nat) (k : erf_consts) (x : Z) : prog Z :=
  let scale := const p (pow2 kappa) in
  let tol := 4 * pow2 kappa in
  let tol_bits := np2_bits (2 * tol) in
  let* y := hint1 (HCustom 17) [x; scale] in
  let* ax := erf_abs nb x in
  let* v := erf_poly kappa nb tb k (fst ax) in
  let shifted := add p (sub p y (mul p (snd ax) v)) (const p tol) in
  let* _ := range_check p c shifted tol_bits in
  let* _ := range_check p c (sub p (const p (2 * tol)) shifted) tol_bits in
  let* _ := range_check p c (add p y scale) (nb + 1) in
  let* _ := range_check p c (sub p scale y) (nb + 1) in
  Ret y.

(* ------------------------------------------------------------------ *)
(** ** Softmax, layers/softmax.rs:109-158: one lane *)

(** The maximum, softmax.rs:121-128: every difference is range checked and
    their product is asserted to be zero *)
Definition softmax_max (db : nat) (m : Z) (xs : list Z) : prog unit :=
  match xs with
  | [] => Ret tt
  | x :: r =>
      let first := sub p m x in
      let* _ := range_check p c first db in
      let* prod := delta_loop p c (fun x => sub p m x) db first r in
      assert_zero prod
  end.

(** One output, softmax.rs:140-151 *)
Definition softmax_out (kappa nb n : nat) (sum_exp y e : Z) : prog unit :=
  let scale := const p (pow2 kappa) in
  let tol := zn n * pow2 kappa in
  let tol_bits := np2_bits (2 * tol) in
  let* _ := range_check p c y nb in
  let* _ := range_check p c (sub p scale y) nb in
  let diff := sub p (mul p y sum_exp) (mul p e scale) in
  range_check p c (add p diff (const p tol)) tol_bits.

Definition softmax_lane (kappa nb tb : nat) (xs : list Z) : prog (list Z) :=
  let n := length xs in
  if (n =? 0)%nat then Ret [] else
  let scale := const p (pow2 kappa) in
  let* out := hintn (HCustom 20) (xs ++ [scale]) (2 * n + 1) in
  let ys := firstn n out in
  let m := nth n out 0 in
  let* _ := softmax_max (tb - 1) m xs in
  let* es := mapM (fun x => verify_exp p c tb (pow2 kappa) (sub p x m)) xs in
  let sum_exp := fold_left (add p) es (const p 0) in
  let* _ := forM (fun ye => softmax_out kappa nb n sum_exp (fst ye) (snd ye)) (combine ys es) in
  let lane_sum := fold_left (add p) ys (const p 0) in
  let sum_shifted := add p (sub p lane_sum scale) (const p (zn n)) in
  let* _ := range_check p c sum_shifted (np2_bits (2 * zn n + 1)) in
  Ret ys.

(* ------------------------------------------------------------------ *)
(** ** LayerNormalization, layers/layer_norm.rs:196-275: one lane.
    [gammas], [betas] are the quantised parameters, [mb] is max_norm_bits
    (layer_norm.rs:27-35, computed in f64), [nb] >= 1. *)

(** layer_norm.rs:138-156 per_elem_tolerance_val and the range width *)
Definition ln_tol (kappa : nat) (gammas : list Z) : Z :=
  2 * fold_right (fun g m => Z.max (Z.abs g) m) 0 gammas + pow2 kappa + 4.
Definition ln_div_shift (kappa nb : nat) : nat := Nat.max (2 * nb + 1) (kappa + 1).

(** One element, layer_norm.rs:226-269: the normalised value *)
Definition ln_element (kappa nb mb : nat) (tol : Z) (mean inv_std : Z) (gb : Z * Z) (x y : Z) : prog Z :=
  let scale := const p (pow2 kappa) in
  let ds := (ln_div_shift kappa nb - kappa)%nat in
  let tol_bits := np2_bits (2 * tol + 1) in
  let* _ := range_check p c (add p y (const p (pow2 (nb - 1)))) nb in
  let norm_unscaled := mul p (sub p x mean) inv_std in
  let* norm_q := div_pow2_inner p c norm_unscaled scale (const p (pow2 (ln_div_shift kappa nb))) kappa ds
                   (const p (pow2 ds)) true in
  let* _ := range_check p c (add p norm_q (const p (pow2 mb))) (mb + 1) in
  let rhs := add p (mul p norm_q (const p (fst gb))) (const p (snd gb)) in
  let diff := sub p (mul p y scale) rhs in
  let* _ := range_check p c (add p diff (const p tol)) tol_bits in
  let* _ := range_check p c (sub p (const p tol) diff) tol_bits in
  Ret norm_q.

Definition layer_norm_lane (kappa nb mb : nat) (gammas betas xs : list Z) : prog (list Z) :=
  let n := length xs in
  if negb (length gammas =? n)%nat || negb (length betas =? n)%nat then Fail 24 else
  let scale := const p (pow2 kappa) in
  let nz := const p (zn n) in
  let n_alpha_sq := zn n * pow2 kappa * pow2 kappa in
  let* out := hintn (HCustom 21) (xs ++ map (const p) gammas ++ map (const p) betas ++ [scale]) (n + 2) in
  let ys := firstn n out in
  let mean := nth n out 0 in
  let inv_std := nth (n + 1) out 0 in
  let* _ := range_check p c inv_std nb in
  let input_sum := fold_left (add p) xs (const p 0) in
  let mean_diff := sub p input_sum (mul p nz mean) in
  let* _ := range_check p c (add p mean_diff nz) (np2_bits (2 * zn n + 1)) in
  let* _ := range_check p c (add p mean (const p (pow2 nb))) (nb + 1) in
  let* norms := mapM (fun t => ln_element kappa nb mb (ln_tol kappa gammas) mean inv_std (fst t) (fst (snd t)) (snd (snd t)))
                  (combine (combine gammas betas) (combine xs ys)) in
  let norm_sq_sum := fold_left (add p) (map (fun q => mul p q q) norms) (const p 0) in
  let var_diff := sub p norm_sq_sum (const p n_alpha_sq) in
  let* _ := range_check p c (add p var_diff (const p n_alpha_sq)) (np2_bits (2 * n_alpha_sq)) in
  Ret ys.
End Activations.

(** gadgets/function_lookup.rs:11-15 function_lookup_bits: the width of the
    exponential table *)
Definition function_lookup_bits (kappa : nat) : nat := Nat.min (kappa + 6) 24.
