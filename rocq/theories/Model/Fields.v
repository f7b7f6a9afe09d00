(** Prime field arithmetic on machine words:
    prover/arith/mersenne31/src/m31.rs and prover/arith/goldilocks/src/goldilocks.rs.
    [None] is an arithmetic overflow, a failed [assume] (undefined behaviour), a
    slice fault or a failed conversion, as said at each definition. *)
From Coq Require Import ZArith List Bool.
From Verif Require Import Base.Array Base.Machine.
Import ListNotations.
Local Open Scope Z_scope.

(** ** Mersenne 31, m31.rs *)

(** m31.rs:12 *)
Definition M31 : Z := 2147483647.

(** m31.rs:14-21 mod_reduce_u32_safe *)
Definition mod_reduce_u32_safe (x : Z) : option Z :=
  let* x := unsigned U32 (Z.land x M31 + Z.shiftr x 31) in
  Some (if x =? M31 then 0 else x).

(** m31.rs:23-26 mod_reduce_i64 *)
Definition mod_reduce_i64 (x : Z) : option Z := signed U64 (Z.land x M31 + Z.shiftr x 31).

(** m31.rs:33-38 PartialEq *)
Definition m31_eq (a b : Z) : option bool :=
  let* x := mod_reduce_u32_safe a in
  let* y := mod_reduce_u32_safe b in
  Some (x =? y).

(** m31.rs:58-75 ExpSerde; [None] is the DeserializeError *)
Definition m31_serialize (v : Z) : option (list Z) :=
  let* x := mod_reduce_u32_safe v in Some (le_bytes 4 x).
Definition m31_deserialize (bytes : list Z) : option (Z * list Z) :=
  let* _ := guard (4 <=? length bytes)%nat in
  let v := le_val (firstn 4 bytes) in
  if M31 <=? v then None else Some (v, skipn 4 bytes).

(** m31.rs:117-119 is_zero *)
Definition m31_is_zero (v : Z) : bool := (v =? 0) || (v =? M31).

(** m31.rs:132-134 to_u256 *)
Definition m31_to_u256 (v : Z) : option Z := mod_reduce_u32_safe v.

(** m31.rs:144-156, 158-171: one pass over a 128-bit word in 31-bit chunks;
    [scale] is 1 for the low word and 16 for the high word. *)
Definition m31_chunks (word scale acc : Z) : option Z :=
  for_in (seq 0 5) (fun i acc =>
    let shift := Z.of_nat i * 31 in
    if shift <? 128 then
      let mask := if shift + 31 <=? 128 then 2 ^ 31 - 1 else 2 ^ (128 - shift) - 1 in
      let chunk := Z.land (Z.shiftr word shift) mask in
      let* t := signed U64 (chunk * scale) in
      let* s := signed U64 (acc + t) in
      mod_reduce_i64 s
    else Some acc) acc.

(** m31.rs:137-179 from_u256; [accumulator as u32] keeps the low 32 bits *)
Definition m31_from_u256 (value : Z) : option Z :=
  let low := value mod U128 in
  let high := value / U128 in
  let* a := m31_chunks low 1 0 in
  let* b := m31_chunks high 16 a in
  mod_reduce_u32_safe (b mod U32).

(** m31.rs:192-196 from_uniform_bytes; [None] if fewer than four bytes *)
Definition m31_from_uniform_bytes (bytes : list Z) : option Z :=
  let* _ := guard (4 <=? length bytes)%nat in
  mod_reduce_u32_safe (le_val (firstn 4 bytes)).

(** m31.rs:209-217 Neg *)
Definition m31_neg (v : Z) : option Z := if v =? 0 then Some 0 else unsigned U32 (M31 - v).

(** m31.rs:219-226 From<u32> *)
Definition m31_from_u32 (x : Z) : Z := if x <? M31 then x else x mod M31.

(** m31.rs:264-270 add_internal *)
Definition m31_add (a b : Z) : option Z :=
  let* vv := unsigned U32 (a + b) in
  if M31 <=? vv then unsigned U32 (vv - M31) else Some vv.

(** m31.rs:273-279 sub_internal *)
Definition m31_sub (a b : Z) : option Z :=
  let* s := unsigned U32 (a + M31) in
  let* vv := unsigned U32 (s - b) in
  if M31 <=? vv then unsigned U32 (vv - M31) else Some vv.

(** m31.rs:282-290 mul_internal; the final cast keeps the low 32 bits *)
Definition m31_mul (a b : Z) : option Z :=
  let* x := signed U64 (a * b) in
  let* vv := mod_reduce_i64 x in
  let* w := if M31 <=? vv then signed U64 (vv - M31) else Some vv in
  Some (w mod U32).

Definition m31_square (a : Z) : option Z := m31_mul a a.
(** prover/arith/src/field.rs:137-139 double *)
Definition m31_double (a : Z) : option Z := m31_add a a.
(** m31.rs:199-206 mul_by_5, mul_by_6 *)
Definition m31_mul_by_5 (a : Z) : option Z := m31_mul a 5.
Definition m31_mul_by_6 (a : Z) : option Z := m31_mul a 6.

(** m31.rs:230-236 exp_power_of_2 *)
Fixpoint m31_exp_power_of_2 (n : nat) (a : Z) : option Z :=
  match n with O => Some a | S m => let* b := m31_square a in m31_exp_power_of_2 m b end.

(** m31.rs:240-260 try_inverse: outer [None] a fault, inner [None] "no inverse" *)
Definition m31_inv (a : Z) : option (option Z) :=
  if m31_is_zero a then Some None else
  let p1 := a in
  let* t := m31_exp_power_of_2 2 p1 in let* p101 := m31_mul t p1 in
  let* t := m31_square p101 in let* p1111 := m31_mul t p101 in
  let* t := m31_exp_power_of_2 4 p1111 in let* p8 := m31_mul t p1111 in
  let* p80000 := m31_exp_power_of_2 4 p8 in
  let* p12 := m31_mul p80000 p1111 in
  let* t := m31_exp_power_of_2 4 p80000 in let* p16 := m31_mul t p8 in
  let* t := m31_exp_power_of_2 12 p16 in let* p28 := m31_mul t p12 in
  let* t := m31_exp_power_of_2 3 p28 in let* r := m31_mul t p101 in
  Some (Some r).

(** prover/arith/src/field.rs:142-155 exp: the loop over the bits of a u128 exponent *)
Fixpoint m31_exp_loop (fuel : nat) (e res t : Z) : option Z :=
  if e =? 0 then Some res else
  match fuel with
  | O => None
  | S f =>
    let* res := if Z.odd e then m31_mul res t else Some res in
    let* t := m31_mul t t in
    m31_exp_loop f (e / 2) res t
  end.
Definition m31_exp (a e : Z) : option Z := m31_exp_loop 128 e 1 a.

(** ** Goldilocks, goldilocks.rs *)

(** goldilocks.rs:15-17 *)
Definition GL : Z := 18446744069414584321.
Definition EPSILON : Z := 4294967295.

(** goldilocks.rs:19-26 mod_reduce_u64 *)
Definition mod_reduce_u64 (x : Z) : Z := if GL <=? x then x - GL else x.

(** goldilocks.rs:33-38 PartialEq *)
Definition gl_eq (a b : Z) : bool := mod_reduce_u64 a =? mod_reduce_u64 b.

(** goldilocks.rs:58-77 ExpSerde *)
Definition gl_serialize (v : Z) : list Z := le_bytes 8 (mod_reduce_u64 v).
Definition gl_deserialize (bytes : list Z) : option (Z * list Z) :=
  let* _ := guard (8 <=? length bytes)%nat in
  let v := le_val (firstn 8 bytes) in
  if GL <=? v then None else Some (v, skipn 8 bytes).

(** goldilocks.rs:107-109 is_zero *)
Definition gl_is_zero (v : Z) : bool := (v =? 0) || (v =? GL).

(** goldilocks.rs:122-124 to_u256, 127-135 from_u256, 149-153 from_uniform_bytes,
    164-178 From<u32>, From<u64> *)
Definition gl_to_u256 (v : Z) : Z := mod_reduce_u64 v.
Definition gl_from_u256 (value : Z) : Z := mod_reduce_u64 (value mod GL mod U128 mod U64).
Definition gl_from_uniform_bytes (bytes : list Z) : option Z :=
  let* _ := guard (8 <=? length bytes)%nat in
  Some (mod_reduce_u64 (le_val (firstn 8 bytes))).
Definition gl_from_u32 (x : Z) : Z := x.
Definition gl_from_u64 (x : Z) : Z := mod_reduce_u64 x.

Definition overflowing_add (a b : Z) : Z * bool := ((a + b) mod U64, U64 <=? a + b).
Definition overflowing_sub (a b : Z) : Z * bool := ((a - b) mod U64, a - b <? 0).
Definition b2e (b : bool) : Z := if b then EPSILON else 0.

(** goldilocks.rs:194-209 add_internal *)
Definition gl_add (a b : Z) : option Z :=
  let (sum, over) := overflowing_add a b in
  let (sum, over) := overflowing_add sum (b2e over) in
  if over then
    let* _ := guard ((GL <? a) && (GL <? b)) in
    unsigned U64 (sum + EPSILON)
  else Some sum.

(** goldilocks.rs:212-228 sub_internal *)
Definition gl_sub (a b : Z) : option Z :=
  let (diff, under) := overflowing_sub a b in
  let (diff, under) := overflowing_sub diff (b2e under) in
  if under then
    let* _ := guard ((a <? EPSILON - 1) && (GL <? b)) in
    unsigned U64 (diff - EPSILON)
  else Some diff.

(** goldilocks.rs:156-162 Neg *)
Definition gl_neg (a : Z) : option Z := gl_sub 0 a.

(** goldilocks.rs:344-377 add_no_canonicalize_trashing_input, both variants:
    [adjustment] is EPSILON on carry and 0 otherwise *)
Definition add_no_canonicalize (x y : Z) : option Z :=
  let (res, carry) := overflowing_add x y in
  let adjustment := b2e carry in
  let* _ := guard (negb (x =? 0) || ((res =? y) && (adjustment =? 0))) in
  let* _ := guard (negb (y =? 0) || ((res =? x) && (adjustment =? 0))) in
  unsigned U64 (res + adjustment).

(** goldilocks.rs:297-310 reduce128, 380-382 split *)
Definition reduce128 (x : Z) : option Z :=
  let x_lo := x mod U64 in
  let x_hi := x / U64 mod U64 in
  let x_hi_hi := Z.shiftr x_hi 32 in
  let x_hi_lo := Z.land x_hi EPSILON in
  let (t0, borrow) := overflowing_sub x_lo x_hi_hi in
  let* t0 := if borrow then unsigned U64 (t0 - EPSILON) else Some t0 in
  let* t1 := unsigned U64 (x_hi_lo * EPSILON) in
  add_no_canonicalize t0 t1.

(** goldilocks.rs:231-233 mul_internal *)
Definition gl_mul (a b : Z) : option Z := let* x := unsigned U128 (a * b) in reduce128 x.

(** u64::trailing_zeros of a non-zero value *)
Fixpoint pos_ctz (x : positive) : Z := match x with xO y => 1 + pos_ctz y | _ => 0 end.
Definition ctz (x : Z) : Z := match x with Zpos q => pos_ctz q | _ => 64 end.

(** goldilocks.rs:527-568 inverse_2exp *)
Definition INV_2_32 : Z := 18446744065119617026.
Fixpoint inverse_2exp_loop (fuel : nat) (res e : Z) : option (Z * Z) :=
  if 32 <? e then
    match fuel with
    | O => None
    | S f => let* res := gl_mul res INV_2_32 in inverse_2exp_loop f res (e - 32)
    end
  else Some (res, e).
Definition inverse_2exp (exp : Z) : option Z :=
  if 32 <? exp then
    let* (res, e) := inverse_2exp_loop (Z.to_nat exp) INV_2_32 (exp - 32) in
    let* f := unsigned U64 (GL - Z.shiftr (GL - 1) e) in
    gl_mul res f
  else unsigned U64 (GL - Z.shiftr (GL - 1) exp).

(** The state of the inversion loop: f, g : u64, c, d : i128, k : u32. *)
Record inv_state := { i_f : Z; i_g : Z; i_c : Z; i_d : Z; i_k : Z }.

Section Inverse.
(** [i128] is the width check for c and d: [signed U128] in the code.  The code
    shifts d left without a check; here losing bits is a failure as well. *)
Variable i128 : Z -> option Z.

Definition inv_swap (s : inv_state) : inv_state :=
  if i_f s <? i_g s
  then {| i_f := i_g s; i_g := i_f s; i_c := i_d s; i_d := i_c s; i_k := i_k s |} else s.

(** goldilocks.rs:473-497 safe_iteration *)
Definition safe_iteration (s : inv_state) : option inv_state :=
  let s := inv_swap s in
  if Z.land (i_f s) 3 =? Z.land (i_g s) 3 then
    let* f := unsigned U64 (i_f s - i_g s) in
    let* c := i128 (i_c s - i_d s) in
    let kk := ctz f in
    let* d := i128 (i_d s * 2 ^ kk) in
    Some {| i_f := Z.shiftr f kk; i_g := i_g s; i_c := c; i_d := d; i_k := i_k s + kk |}
  else
    let* f := unsigned U64 (Z.shiftr (i_f s) 2 + Z.shiftr (i_g s) 2 + 1) in
    let* c := i128 (i_c s + i_d s) in
    let kk := ctz f in
    let* d := i128 (i_d s * 2 ^ (kk + 2)) in
    Some {| i_f := Z.shiftr f kk; i_g := i_g s; i_c := c; i_d := d; i_k := i_k s + (kk + 2) |}.

(** goldilocks.rs:503-523 unsafe_iteration *)
Definition unsafe_iteration (s : inv_state) : option inv_state :=
  let s := inv_swap s in
  let* (f, c) :=
    (if Z.land (i_f s) 3 =? Z.land (i_g s) 3 then
       let* f := unsigned U64 (i_f s - i_g s) in
       let* c := i128 (i_c s - i_d s) in Some (f, c)
     else
       let* f := unsigned U64 (i_f s + i_g s) in
       let* c := i128 (i_c s + i_d s) in Some (f, c)) in
  let kk := ctz f in
  let* d := i128 (i_d s * 2 ^ kk) in
  Some {| i_f := Z.shiftr f kk; i_g := i_g s; i_c := c; i_d := d; i_k := i_k s + kk |}.

(** goldilocks.rs:434-439 the remaining iterations *)
Fixpoint inv_loop (fuel : nat) (s : inv_state) : option inv_state :=
  if i_f s =? 1 then Some s else
  match fuel with
  | O => None
  | S n => let* s := unsafe_iteration s in inv_loop n s
  end.

(** goldilocks.rs:391-467 try_inverse_u64: outer [None] a fault, inner [None]
    "no inverse".  The two loops that bring c into [0, p) are [mod]; k is unbounded. *)
Definition try_inverse_u64 (x : Z) : option (option Z) :=
  if (x =? 0) || (x =? GL) then Some None else
  let k := ctz x in
  let f := Z.shiftr x k in
  if f =? 1 then let* r := inverse_2exp k in Some (Some r) else
  let* s := safe_iteration {| i_f := f; i_g := GL; i_c := 1; i_d := 0; i_k := k |} in
  if i_f s =? 1 then
    let* r := inverse_2exp (i_k s) in
    if i_c s =? -1 then let* r := unsigned U64 (GL - r) in Some (Some r) else Some (Some r)
  else
  let* s := safe_iteration s in
  let* s := inv_loop 128 s in
  let* r := inverse_2exp (i_k s) in
  let* r := gl_mul (i_c s mod GL) r in
  Some (Some r).
End Inverse.

Definition gl_inv (x : Z) : option (option Z) := try_inverse_u64 (signed U128) x.
