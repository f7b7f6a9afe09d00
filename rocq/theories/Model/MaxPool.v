(** MaxPool: rust/jstprove_circuits/src/circuit_functions/layers/maxpool.rs and its shape
    inference, rust/jstprove_onnx/src/shape_inference.rs ("inf").  [None] is an Err or a panic.
    Simplified: attributes are not negative (both readers refuse negative ones), sizes are
    exact, and the look-up of tensors by name is left out. *)
From Coq Require Import List Arith Bool ZArith.
From Verif Require Import Base.Array Spec.Shapes Spec.Tensors Model.Conv.
Import ListNotations.
Local Open Scope Z_scope.

(** The attributes of the node; [None] is an absent attribute *)
Record mp_node := { mp_kernel : option (list nat); mp_strides : option (list nat); mp_pads : option (list nat);
  mp_dilations : option (list nat); mp_ceil_mode : bool }.

(** inf:1060-1134 infer_maxpool *)
Definition infer_maxpool (a : mp_node) (input_shape : list nat) : option (list nat) :=
  let* kernel := mp_kernel a in
  let* _ := guard (negb (existsb (Nat.eqb 0) kernel)) in
  let sd := length kernel in
  let st := match mp_strides a with Some v => v | None => repeat 1%nat sd end in
  let pd := match mp_pads a with Some v => v | None => repeat 0%nat (sd * 2) end in
  let* _ := guard (negb (length input_shape <? 2 + sd)%nat) in
  let* _ := guard (negb ((length pd <? 2 * sd) || (length st <? sd))%nat) in
  let* n := aget input_shape 0 in
  let* c := aget input_shape 1 in
  let* out := omap (fun i =>
    let* in_dim := aget input_shape (2 + i) in
    let* p0 := aget pd i in
    let* p1 := aget pd (sd + i) in
    let* s := aget st i in
    let* k := aget kernel i in
    let padded := (in_dim + (p0 + p1))%nat in
    let* _ := guard (negb (s =? 0)%nat) in
    let* _ := guard (negb (padded <? k)%nat) in
    Some ((padded - k) / s + 1)%nat) (seq 0 sd) in
  Some (n :: c :: out).

(** maxpool.rs:138-143 PoolingParams, as pairs; the pads are begin and end of each axis *)
Record pooling := { pk : nat * nat; ps : nat * nat; pdl : nat * nat; pp : (nat * nat) * (nat * nat) }.

(** maxpool.rs:103-123 (the defaults of build), 161-233 setup_maxpooling_2d_params *)
Definition setup_params (a : mp_node) : option pooling :=
  let* kernel := mp_kernel a in
  let sr := length kernel in
  let* (p0, p1, p2, p3) := match (match mp_pads a with Some v => v | None => repeat 0%nat (2 * sr) end) with
    | [] => Some (0, 0, 0, 0)%nat
    | [v] => Some (v, v, v, v)
    | [v; u] => Some (v, u, v, u)
    | [v; u; t; r] => Some (v, u, t, r)
    | _ => None
    end in
  let* k := match kernel with [v] => Some (v, v) | [v; u] => Some (v, u) | _ => None end in
  let pair := fun l => match l with [] => Some (1, 1)%nat | [v] => Some (v, v) | [v; u] => Some (v, u) | _ => None end in
  let* d := pair (match mp_dilations a with Some v => v | None => repeat 1%nat sr end) in
  let* s := pair (match mp_strides a with Some v => v | None => repeat 1%nat sr end) in
  Some {| pk := k; ps := s; pdl := d; pp := ((p0, p2), (p1, p3)) |}.

(** maxpool.rs:288-322, one axis, with ceil_mode false (72); a kernel of zero underflows and a
    stride of zero divides by zero *)
Definition pooled_size (d k s dil before after : nat) : option nat :=
  let* _ := guard (negb (k =? 0)%nat) in
  let extent := ((k - 1) * dil + 1)%nat in
  let* _ := guard (extent <=? d + (before + after))%nat in
  let* _ := guard (negb (s =? 0)%nat) in
  Some ((d + (before + after) - extent) / s + 1)%nat.

(** maxpool.rs:442-443, 452-456 (446-448, 458-462 for the columns): the rows of the image under
    the window of output [o] *)
Definition taps (k s dil before size o : nat) : list nat :=
  let start := Z.of_nat o * Z.of_nat s - Z.of_nat before in
  flat_map (fun h => if (0 <=? h) && (h <? Z.of_nat size) then [Z.to_nat h] else []) (step_by start (start + Z.of_nat (k * dil)) dil).

(** maxpool.rs:450-467: the values under a window *)
Definition window_values (P : pooling) (x : tensor Z) (height width : nat) (n c i j : nat) : option (list Z) :=
  omap (fun hw => elem x [n; c; fst hw; snd hw])
    (list_prod (taps (fst (pk P)) (fst (ps P)) (fst (pdl P)) (fst (fst (pp P))) height i)
               (taps (snd (pk P)) (snd (ps P)) (snd (pdl P)) (fst (snd (pp P))) width j)).
(** The size of the output: maxpool.rs:63-80, 259-333; the shape of the input is that of the image; a
    dilation of zero panics in step_by (452, 458) *)
Definition setup_maxpooling (a : mp_node) (shape : list nat) : option (pooling * (nat * nat * nat * nat) * (nat * nat)) :=
  let* P := setup_params a in
  match shape with
  | [n; c; h; w] =>
    let* _ := guard (negb ((fst (pdl P) =? 0) || (snd (pdl P) =? 0))%nat) in
    let* ph := pooled_size h (fst (pk P)) (fst (ps P)) (fst (pdl P)) (fst (fst (pp P))) (snd (fst (pp P))) in
    let* pw := pooled_size w (snd (pk P)) (snd (ps P)) (snd (pdl P)) (fst (snd (pp P))) (snd (snd (pp P))) in
    Some (P, (n, c, h, w), (ph, pw))
  | _ => None
  end.
