(** Models of the circuit gadgets.
    Paths are relative to
    /repo/rust/jstprove_circuits/src/circuit_functions unless they start with /repo. *)
From Coq Require Import ZArith List Bool Lia.
From Verif Require Import Model.Builder.
Import ListNotations.
Local Open Scope Z_scope.

Definition zn (n : nat) : Z := Z.of_nat n.
Definition pow2 (n : nat) : Z := 2 ^ zn n.

Section Gadgets.
Variable p : Z.        (** the field's modulus *)
Variable c : nat.      (** LogupRangeCheckContext::chunk_bits, gadgets/range_check.rs:183-186 *)

(** The content of the lookup tables after [initial]
    (/repo/compiler/circuit-std-rs/src/logup.rs:348-353): the range table holds the
    one-column rows 0 .. 2^c - 1, table [TFun i] holds the rows of [F i]. *)
Definition table_rows (F : nat -> list (list Z)) (t : tableid) (row : list Z) : Prop :=
  match t with
  | TRange => match row with [v] => 0 <= v < pow2 c | _ => False end
  | TFun i => In row (F i)
  end.

Definition table_rowsb (F : nat -> list (list Z)) (t : tableid) (row : list Z) : bool :=
  match t with
  | TRange => match row with [v] => (0 <=? v) && (v <? pow2 c) | _ => false end
  | TFun i => existsb (fun r => if list_eq_dec Z.eq_dec r row then true else false) (F i)
  end.

(* ------------------------------------------------------------------ *)
(** ** Range checks *)

(** The shift added before the digit decomposition when [n] is not a multiple
    of the chunk width, logup.rs:374-387 and 425-436; [0] otherwise. *)
Definition range_shift (n : nat) : nat :=
  if (n mod c =? 0)%nat then 0%nat else (c - n mod c)%nat.

Definition shifted_value (a : Z) (n : nat) : Z :=
  if (n mod c =? 0)%nat then a
  else add p a (mul p (const p (pow2 (range_shift n) - 1)) (const p (pow2 n))).

(** The recomposition loop, logup.rs:398-406: [sum = w_0; sum += w_i * 2^(c*i)] *)
Fixpoint recompose (i : nat) (sum : Z) (ws : list Z) : Z :=
  match ws with
  | [] => sum
  | w :: r => recompose (S i) (add p sum (mul p w (const p (2 ^ (zn c * zn i))))) r
  end.

(** rangeproof_onechunk, logup.rs:413-438 *)
Definition rangeproof_onechunk (a : Z) (n : nat) : prog unit :=
  if (c <? n)%nat then Fail 1 else lookup TRange [shifted_value a n].

(** rangeproof, logup.rs:363-411.  The u128 constant 2^n overflows for n = 128
    when c does not divide 128 (a panic in debug builds); modelled as [Fail]. *)
Definition rangeproof (a : Z) (n : nat) : prog unit :=
  if (128 <? n)%nat then Fail 2
  else if (n <=? c)%nat then rangeproof_onechunk a n
  else if (n =? 128)%nat && negb (n mod c =? 0)%nat then Fail 3
  else
    let new_a := shifted_value a n in
    let n' := (n + range_shift n)%nat in
    let* ws := hintn HRangeProof [const p (zn n'); const p (zn c); new_a] (n' / c) in
    let* _ := assert_eq (recompose 1 (hd 0 ws) (tl ws)) new_a in
    forM (fun w => lookup TRange [w]) (firstn (n' / c) ws).

(** LogupRangeCheckContext::range_check, gadgets/range_check.rs:240-263 *)
Definition range_check (value : Z) (n_bits : nat) : prog unit :=
  if (n_bits =? 0)%nat then Fail 4
  else if (128 <? n_bits)%nat then Fail 5
  else rangeproof value n_bits.

(** unconstrained_to_bits, hints/bits.rs:71-116 *)
Fixpoint extract_bits (current : Z) (n : nat) : prog (list Z) :=
  match n with
  | O => Ret []
  | S m =>
      let* bit := unconstrained_bit_and current 1 in
      let* next := unconstrained_shift_r current 1 in
      let* rest := extract_bits next m in
      Ret (bit :: rest)
  end.

Definition unconstrained_to_bits (input : Z) (n_bits : nat) : prog (list Z) :=
  if (n_bits =? 0)%nat then Fail 6
  else if (256 <=? n_bits)%nat then Fail 7
  else if p / 2 <=? pow2 n_bits then Fail 8
  else extract_bits input n_bits.

(** constrained_reconstruct_from_bits, gadgets/range_check.rs:61-86 *)
Fixpoint reconstruct_loop (i : nat) (acc : Z) (bits : list Z) : prog Z :=
  match bits with
  | [] => Ret acc
  | b :: r =>
      let* _ := assert_bool p b in
      reconstruct_loop (S i) (add p acc (mul p (const p (pow2 i)) b)) r
  end.

Definition constrained_reconstruct_from_bits (bits : list Z) : prog Z :=
  if (256 <? length bits)%nat then Fail 9
  else reconstruct_loop 0 (const p 0) bits.

(** range_check_pow2_unsigned, gadgets/range_check.rs:125-140 *)
Definition range_check_pow2_unsigned (value : Z) (n_bits : nat) : prog (list Z) :=
  let* bits := unconstrained_to_bits value n_bits in
  let* recon := constrained_reconstruct_from_bits bits in
  let* _ := assert_eq value recon in
  Ret bits.

(* ------------------------------------------------------------------ *)
(** ** Division by a constant *)

(** div_pos_integer_pow2_constant_inner, gadgets/euclidean_division.rs:84-130 *)
Definition div_pow2_inner (dividend divisor divisor_by_shift : Z)
    (divisor_exponent shift_exponent : nat) (shift : Z) (check_q : bool) : prog Z :=
  let sd := add p divisor_by_shift dividend in
  let* q := unconstrained_int_div sd divisor in
  let* r := unconstrained_mod sd divisor in
  let rhs := add p (mul p divisor q) r in
  let* _ := assert_eq sd rhs in
  let* _ := range_check r divisor_exponent in
  let* _ := (if check_q then range_check q (shift_exponent + 1) else Ret tt) in
  Ret (sub p q shift).

(** div_pos_integer_pow2_constant, gadgets/euclidean_division.rs:50-71 *)
Definition div_pow2 (dividend divisor divisor_by_shift : Z)
    (divisor_exponent shift_exponent : nat) (shift : Z) : prog Z :=
  div_pow2_inner dividend divisor divisor_by_shift divisor_exponent shift_exponent shift true.

(** Number of bits of [x] (0 for 0): u32::BITS - leading_zeros, euclidean_division.rs:186 *)
Definition bit_length (x : Z) : nat := if x =? 0 then 0%nat else Z.to_nat (Z.log2 x + 1).

Definition is_pow2 (x : Z) : bool := (0 <? x) && (x =? 2 ^ Z.log2 x).

(** div_pos_integer_constant, gadgets/euclidean_division.rs:146-224 *)
Definition div_const (dividend divisor : Z) (divisor_val : Z) (divisor_by_shift : Z)
    (shift_exponent : nat) (shift : Z) : prog Z :=
  if divisor_val =? 0 then Fail 10
  else if divisor_val =? 1 then Ret dividend
  else if is_pow2 divisor_val then
    div_pow2 dividend divisor divisor_by_shift (Z.to_nat (Z.log2 divisor_val)) shift_exponent shift
  else
    let sd := add p divisor_by_shift dividend in
    let* q := unconstrained_int_div sd divisor in
    let* r := unconstrained_mod sd divisor in
    let rhs := add p (mul p divisor q) r in
    let* _ := assert_eq sd rhs in
    let rbits := bit_length (divisor_val - 1) in
    let* _ := range_check r rbits in
    let d1 := const p (divisor_val - 1) in
    let* _ := range_check (sub p d1 r) rbits in
    let* _ := range_check q (shift_exponent + 1) in
    Ret (sub p q shift).

(* ------------------------------------------------------------------ *)
(** ** Max, min, ReLU, clip: gadgets/max_min_clip.rs *)

(** ShiftRangeContext::new, max_min_clip.rs:21-44: the offset constant 2^s,
    an error when 2^s does not fit in u64 *)
Definition shift_ctx (s : nat) : prog Z :=
  if (64 <=? s)%nat then Fail 11 else Ret (const p (pow2 s)).

(** unconstrained_max, hints/max_min_clip.rs:72-99 *)
Fixpoint umax_loop (cur : Z) (vs : list Z) : prog Z :=
  match vs with
  | [] => Ret cur
  | v :: r =>
      let* g := unconstrained_greater v cur in
      let* ng := unconstrained_lesser_eq v cur in
      let* take := unconstrained_mul p v g in
      let* keep := unconstrained_mul p cur ng in
      let* nxt := unconstrained_add p take keep in
      umax_loop nxt r
  end.
Definition unconstrained_max (vs : list Z) : prog Z :=
  match vs with [] => Fail 12 | v :: r => umax_loop v r end.

(** unconstrained_min, hints/max_min_clip.rs:155-182 *)
Fixpoint umin_loop (cur : Z) (vs : list Z) : prog Z :=
  match vs with
  | [] => Ret cur
  | v :: r =>
      let* l := unconstrained_lesser v cur in
      let* nl := unconstrained_greater_eq v cur in
      let* take := unconstrained_mul p v l in
      let* keep := unconstrained_mul p cur nl in
      let* nxt := unconstrained_add p take keep in
      umin_loop nxt r
  end.
Definition unconstrained_min (vs : list Z) : prog Z :=
  match vs with [] => Fail 12 | v :: r => umin_loop v r end.

(** constrained_max_2, max_min_clip.rs:111-149 *)
Definition constrained_max_2 (s : nat) (offset x a : Z) : prog Z :=
  let* b := unconstrained_greater_eq (add p x offset) (add p a offset) in
  let* _ := assert_bool p b in
  let diff := sub p x a in
  let result := add p a (mul p b diff) in
  let selector := sub p (add p b b) (const p 1) in
  let* _ := range_check (mul p selector diff) (s + 1) in
  Ret result.

(** constrained_min_2, max_min_clip.rs:255-293 *)
Definition constrained_min_2 (s : nat) (offset x a : Z) : prog Z :=
  let* b := unconstrained_greater_eq (add p a offset) (add p x offset) in
  let* _ := assert_bool p b in
  let diff := sub p a x in
  let result := sub p a (mul p b diff) in
  let selector := sub p (add p b b) (const p 1) in
  let* _ := range_check (mul p selector diff) (s + 1) in
  Ret result.

(** The delta loop of constrained_max / constrained_min,
    max_min_clip.rs:86-100 and 228-243: [d x] is the delta *)
Fixpoint delta_loop (d : Z -> Z) (nb : nat) (prod : Z) (vs : list Z) : prog Z :=
  match vs with
  | [] => Ret prod
  | x :: r =>
      let* _ := range_check (d x) nb in
      delta_loop d nb (mul p prod (d x)) r
  end.

(** constrained_max, max_min_clip.rs:52-104 *)
Definition constrained_max (s : nat) (offset : Z) (vs : list Z) : prog Z :=
  match vs with
  | [] => Fail 13
  | [x; a] => constrained_max_2 s offset x a
  | _ =>
      let* mo := unconstrained_max (map (fun x => add p x offset) vs) in
      let m := sub p mo offset in
      let* prod := delta_loop (fun x => sub p m x) (s + 1) (const p 1) vs in
      let* _ := assert_zero prod in
      Ret m
  end.

(** constrained_min, max_min_clip.rs:194-248 *)
Definition constrained_min (s : nat) (offset : Z) (vs : list Z) : prog Z :=
  match vs with
  | [] => Fail 13
  | [x; a] => constrained_min_2 s offset x a
  | _ =>
      let* mo := unconstrained_min (map (fun x => add p x offset) vs) in
      let m := sub p mo offset in
      let* prod := delta_loop (fun x => sub p x m) (s + 1) (const p 1) vs in
      let* _ := assert_zero prod in
      Ret m
  end.

(** constrained_relu, max_min_clip.rs:155-187 *)
Definition constrained_relu (s : nat) (offset x : Z) : prog Z :=
  let* b := unconstrained_greater_eq (add p x offset) offset in
  let* _ := assert_bool p b in
  let result := mul p b x in
  let* _ := range_check (sub p (add p result result) x) (s + 1) in
  Ret result.

(** constrained_clip, max_min_clip.rs:299-329 *)
Definition constrained_clip (s : nat) (offset x : Z) (lower upper : option Z) : prog Z :=
  let* cur := match lower with Some a => constrained_max_2 s offset x a | None => Ret x end in
  match upper with Some b => constrained_min_2 s offset cur b | None => Ret cur end.

(* ------------------------------------------------------------------ *)
(** ** Rescaling: utils/quantization.rs *)

(** RescalingContext::new, utils/quantization.rs:121-166: alpha = 2^kappa must
    fit in u32, S = 2^s in u64 *)
Record rescale_ctx := { rc_kappa : nat; rc_s : nat; rc_alpha : Z; rc_shift : Z; rc_scaled : Z }.

Definition rescaling_context (kappa s : nat) : prog rescale_ctx :=
  if (32 <=? kappa)%nat then Fail 14
  else if (64 <=? s)%nat then Fail 15
  else Ret {| rc_kappa := kappa; rc_s := s; rc_alpha := const p (pow2 kappa);
              rc_shift := const p (pow2 s); rc_scaled := const p (pow2 kappa * pow2 s) |}.

(** rescale, utils/quantization.rs:219-257 *)
Definition rescale (ctx : rescale_ctx) (dividend : Z) (apply_relu : bool) : prog Z :=
  let* quotient := div_pow2_inner dividend (rc_alpha ctx) (rc_scaled ctx)
                     (rc_kappa ctx) (rc_s ctx) (rc_shift ctx) (negb apply_relu) in
  if apply_relu then
    let* offset := shift_ctx (rc_s ctx) in
    constrained_relu (rc_s ctx) offset quotient
  else Ret quotient.

(** rescale_array, utils/quantization.rs:299-317 (the array is flattened; the
    shape is carried over unchanged) *)
Definition rescale_array (xs : list Z) (kappa s : nat) (apply_relu : bool) : prog (list Z) :=
  let* ctx := rescaling_context kappa s in
  mapM (fun x => rescale ctx x apply_relu) xs.

(** standalone_relu_array, utils/quantization.rs:391-408 *)
Definition standalone_relu_array (xs : list Z) (s : nat) : prog (list Z) :=
  let* offset := shift_ctx s in
  mapM (constrained_relu s offset) xs.

(** maybe_rescale, utils/quantization.rs:342-389 *)
Definition maybe_rescale (xs : list Z) (is_rescale is_relu : bool) (kappa n_bits : nat)
    : prog (list Z) :=
  if negb is_rescale then
    if is_relu then
      if (n_bits =? 0)%nat then Fail 16 else standalone_relu_array xs (n_bits - 1)
    else Ret xs
  else if (n_bits =? 0)%nat then Fail 16
  else rescale_array xs kappa (n_bits - 1) is_relu.

End Gadgets.
