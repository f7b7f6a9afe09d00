(** The hint of GridSample in bilinear mode with a constant grid:
    rust/jstprove_circuits/src/circuit_functions/hints/gridsample.rs and hints/mod.rs. *)
From Coq Require Import List Arith Bool ZArith.
Import ListNotations.
Local Open Scope Z_scope.

Section Hint.
Variable p : Z.
Definition i64_max : Z := 2 ^ 63 - 1.
Definition i64_min : Z := - 2 ^ 63.
Definition u64_max : Z := 2 ^ 64 - 1.
Definition is_i128 (v : Z) : bool := (- 2 ^ 127 <=? v) && (v <=? 2 ^ 127 - 1).
(** hints/mod.rs:98-117 field_to_i64 *)
Definition field_to_i64 (x : Z) : Z :=
  if p / 2 <? x then (if i64_max <? p - x then i64_min else - (p - x))
  else if i64_max <? x then i64_max else x.
(** hints/gridsample.rs:95-114: the sum, with the overflow checks *)
Fixpoint hint_sum (xs ws : list Z) (sum : Z) : option Z :=
  match xs, ws with
  | x :: xs, w :: ws =>
      if u64_max <? w then None else
      let product := field_to_i64 x * w in
      if negb (is_i128 product) then None else
      if negb (is_i128 (sum + product)) then None else hint_sum xs ws (sum + product)
  | _, _ => Some sum
  end.
(** hints/gridsample.rs:60-153 gridsample_hint; the additions of half the scale (117-127) panic
    on overflow in debug builds, which is not modelled *)
Definition gridsample_hint (ins : list Z) (n_out : nat) : option (list Z) :=
  if (length ins mod 2 =? 0)%nat then None else
  if negb (n_out =? 1)%nat then None else
  let n := ((length ins - 1) / 2)%nat in
  if (n =? 0)%nat then None else
  let scale := nth (2 * n) ins 0 in
  if u64_max <? scale then None else
  if scale =? 0 then None else
  match hint_sum (firstn n ins) (firstn n (skipn n ins)) 0 with
  | None => None
  | Some sum =>
      let half := scale / 2 in
      let y := if 0 <=? sum then Z.min i64_max ((sum + half) / scale) else Z.max i64_min (Z.quot (sum - half) scale) in
      if y <? 0 then None else Some [y]
  end.
End Hint.
