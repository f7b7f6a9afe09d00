(** Constraint systems of individual layers.
    Paths are relative to /repo/rust/jstprove_circuits/src/circuit_functions. *)
From Coq Require Import ZArith List Bool Lia.
From Verif Require Import Model.Builder Model.Gadgets.
Import ListNotations.
Local Open Scope Z_scope.

Section Layers.
Variable p : Z.
Variable c : nat.

(** is_zero, /repo/compiler/expander_compiler/src/builder/hint_normalize.rs:161-183:
    inv is a Div hint, m = 1 - x * inv, asserted x * m = 0, result m.  (Constants
    are folded by the builder; folding returns the same value.) *)
Definition is_zero (x : Z) : prog Z :=
  let* inv := hint1 HDiv [const p 1; x] in
  let m := sub p (const p 1) (mul p x inv) in
  let* _ := assert_zero (mul p x m) in
  Ret m.

(* ------------------------------------------------------------------ *)
(** ** TopK, layers/topk.rs:415-560 (one lane; [compute] runs it for every lane) *)

(** Product of the factors (v - e) over [e] in [lane], as accumulated in
    membership_prods[j], topk.rs:464-471 *)
Definition member_prod (v : Z) (lane : list Z) : Z :=
  fold_left (fun m e => mul p m (sub p v e)) lane (const p 1).
(** Product of the factors (v - e) over the values [v], the qi of topk.rs:465-471 *)
Definition sel_prod (values : list Z) (e : Z) : Z :=
  fold_left (fun q v => mul p q (sub p v e)) values (const p 1).

(** topk.rs:464-486 *)
Definition topk_bound (nb : nat) (values : list Z) (min_val e : Z) : prog unit :=
  let* is_sel := is_zero (sel_prod values e) in
  let not_sel := sub p (const p 1) is_sel in
  range_check p c (mul p not_sel (sub p min_val e)) (nb + 1).

(** The selection loop, topk.rs:528-538: [a] is the running position *)
Fixpoint topk_select (idx : Z) (a : Z) (lane : list Z) (selected matched : Z) : prog (Z * Z) :=
  match lane with
  | [] => Ret (selected, matched)
  | e :: r =>
      let* is_match := is_zero (sub p idx (const p a)) in
      topk_select idx (a + 1) r (add p selected (mul p is_match e)) (add p matched is_match)
  end.

(** topk.rs:445-447 *)
Definition topk_idx_bits (dim : nat) : nat := Nat.max 1 (bit_length (zn dim - 1)).

(** topk.rs:506-541 *)
Definition topk_index (lane : list Z) (idx v : Z) : prog unit :=
  let bits := topk_idx_bits (length lane) in
  let* _ := range_check p c idx bits in
  let* _ := range_check p c (sub p (const p (zn (length lane) - 1)) idx) bits in
  let* sm := topk_select idx 0 lane (const p 0) (const p 0) in
  let* _ := assert_eq (snd sm) (const p 1) in
  assert_eq (fst sm) v.

(** topk.rs:450-542, one lane.  [nb] is the layer's n_bits; the offset is 2^nb
    and the range width nb+1 (topk.rs:98-105).  [values[k - 1]] panics for k = 0. *)
Definition topk_lane (nb k : nat) (scale : Z) (lane : list Z) : prog (list Z * list Z) :=
  if (k =? 0)%nat then Fail 20 else
  let offset := const p (pow2 nb) in
  let* out := hintn (HCustom 7) (lane ++ [scale]) (2 * k) in
  let values := firstn k out in
  let indices := skipn k out in
  let min_val := nth (k - 1) values 0 in
  let* _ := forM (topk_bound nb values min_val) lane in
  let* _ := forM (fun v => assert_zero (member_prod v lane)) values in
  let* _ := forM (fun ab => range_check p c (add p (sub p (fst ab) (snd ab)) offset) (nb + 1))
              (combine values (tl values)) in
  let* _ := forM (fun iv => topk_index lane (fst iv) (snd iv)) (combine indices values) in
  Ret (values, indices).

(* ------------------------------------------------------------------ *)
(** ** Exponential by two lookups, gadgets/function_lookup.rs:149-188.
    Table [TFun 0] is the high table, [TFun 1] the low table. *)

(** DecomposedExpLookup::verify_exp; [tb] = total_bits, [E] = compute_exp *)
Definition verify_exp (tb : nat) (scale x : Z) : prog Z :=
  let cb := (tb / 2)%nat in
  let hb := (tb - cb)%nat in
  let chunk := const p (pow2 cb) in
  let scale_v := const p scale in
  let x_shifted := add p x (const p (pow2 (tb - 1))) in
  let* x_high_u := unconstrained_int_div x_shifted chunk in
  let* x_low := unconstrained_mod x_shifted chunk in
  let* _ := assert_eq (add p (mul p x_high_u chunk) x_low) x_shifted in
  let* _ := range_check p c x_low cb in
  let x_high := sub p x_high_u (const p (pow2 (hb - 1))) in
  let* exp_high := hint1 (HCustom 1) [mul p x_high chunk; scale_v] in
  let* exp_low := hint1 (HCustom 1) [x_low; scale_v] in
  let* _ := lookup (TFun 0) [x_high; exp_high] in
  let* _ := lookup (TFun 1) [x_low; exp_low] in
  let product := mul p exp_high exp_low in
  let* y := unconstrained_int_div product scale_v in
  let* remainder := unconstrained_mod product scale_v in
  let* _ := assert_eq (add p (mul p y scale_v) remainder) product in
  let* _ := range_check p c remainder (bit_length scale) in
  Ret y.

(** FunctionLookupTable::build_signed / build_unsigned, function_lookup.rs:34-80:
    rows [key; f(key)] for keys -2^(n-1) .. 2^(n-1)-1, resp. 0 .. 2^n - 1 *)
Definition signed_table (f : Z -> Z) (n : nat) : list (list Z) :=
  map (fun i => let x := Z.of_nat i - pow2 (n - 1) in [const p x; const p (f x)])
    (seq 0 (Z.to_nat (pow2 n))).
Definition unsigned_table (f : Z -> Z) (n : nat) : list (list Z) :=
  map (fun i => let x := Z.of_nat i in [const p x; const p (f x)]) (seq 0 (Z.to_nat (pow2 n))).

(** The tables of DecomposedExpLookup::build, function_lookup.rs:104-141
    (saturating_mul never saturates for tb <= 64) *)
Definition exp_tables (tb : nat) (E : Z -> Z) (i : nat) : list (list Z) :=
  let cb := (tb / 2)%nat in
  match i with
  | O => signed_table (fun xh => E (xh * pow2 cb)) (tb - cb)
  | _ => unsigned_table E cb
  end.

(* ------------------------------------------------------------------ *)
(** ** Pow, layers/pow.rs:28-81 *)

(** One "multiply then divide by the scale" step, pow.rs:50-57 and 61-67 *)
Definition pow_step (scale_v : Z) (kappa : nat) (a b : Z) : prog Z :=
  let product := mul p a b in
  let* q := unconstrained_int_div product scale_v in
  let* rem := unconstrained_mod product scale_v in
  let* _ := assert_eq (add p (mul p q scale_v) rem) product in
  let* _ := range_check p c rem kappa in
  Ret q.

(** The square-and-multiply loop, pow.rs:48-69, on the binary digits of |exp|. *)
Fixpoint pow_loop (scale_v : Z) (kappa : nat) (e : positive) (result base : Z) : prog Z :=
  match e with
  | xH => pow_step scale_v kappa result base
  | xO e' =>
      let* base' := pow_step scale_v kappa base base in
      pow_loop scale_v kappa e' result base'
  | xI e' =>
      let* result' := pow_step scale_v kappa result base in
      let* base' := pow_step scale_v kappa base base in
      pow_loop scale_v kappa e' result' base'
  end.

(** constrained_pow_integer, pow.rs:28-81 *)
Definition pow_integer (scale_v : Z) (kappa : nat) (x exp : Z) : prog Z :=
  match exp with
  | 0 => Ret scale_v
  | 1 => Ret x
  | Zpos e => pow_loop scale_v kappa e scale_v x
  | Zneg e =>
      let* result := pow_loop scale_v kappa e scale_v x in
      let scale_sq := mul p scale_v scale_v in
      let* inv := unconstrained_int_div scale_sq result in
      let* inv_rem := unconstrained_mod scale_sq result in
      let* _ := assert_eq (add p (mul p inv result) inv_rem) scale_sq in
      Ret inv
  end.

(** PowLayer::apply on one element, pow.rs:101-122 *)
Definition pow_element (kappa nb : nat) (x exp : Z) : prog Z :=
  let* y := pow_integer (const p (pow2 kappa)) kappa x exp in
  let* _ := range_check p c y nb in
  Ret y.

(* ------------------------------------------------------------------ *)
(** ** Average pooling, layers/averagepool.rs:179-243 and
    layers/global_averagepool.rs:91-133: one window of valid inputs *)
Definition sum_vars (vs : list Z) : Z :=
  match vs with [] => const p 0 | v :: r => fold_left (add p) r v end.

(** ceil_log2, averagepool.rs:61-67 *)
Definition ceil_log2 (n : nat) : nat := if (n <=? 1)%nat then 1%nat else bit_length (zn n - 1).

Definition avgpool_window (nb : nat) (vs : list Z) : prog Z :=
  match vs with
  | [] => Ret (const p 0)
  | [y] => let* _ := range_check p c y nb in Ret y
  | _ =>
      let n := length vs in
      let* _ := forM (fun v => range_check p c v nb) vs in
      let* y := hint1 (HCustom 3) vs in
      let r := sub p (sum_vars vs) (mul p (const p (zn n)) y) in
      let s := add p r (const p (zn n / 2)) in
      let k := ceil_log2 n in
      let* _ := range_check p c s k in
      let* _ := range_check p c (sub p (const p (zn n - 1)) s) k in
      let* _ := range_check p c y nb in
      Ret y
  end.

(** ReduceMean, layers/reduce_mean.rs:66-140: one output; [n] = lane_size.
    [n_bits - 1] underflows (a panic) when n_bits = 0. *)
Definition reduce_mean_bits (n : nat) : nat := Nat.max 1 (bit_length (zn n - 1)).

Definition reduce_mean_out (nb : nat) (n : nat) (vs : list Z) : prog Z :=
  if (nb =? 0)%nat then Fail 21 else
  let n_const := const p (zn n) in
  let bits := reduce_mean_bits n in
  let biased := add p (sum_vars vs) (const p (zn n / 2)) in
  let* mean_q := unconstrained_int_div biased n_const in
  let* rem := unconstrained_mod biased n_const in
  let* _ := assert_eq biased (add p (mul p n_const mean_q) rem) in
  let* _ := range_check p c rem bits in
  let* _ := (if is_pow2 (zn n) then Ret tt
             else range_check p c (sub p (const p (zn n - 1)) rem) bits) in
  let* _ := range_check p c (add p mean_q (const p (pow2 (nb - 1)))) nb in
  Ret mean_q.
End Layers.
