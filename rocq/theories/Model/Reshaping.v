(** The layers Reshape, Flatten, Squeeze, Unsqueeze, Range, Shape and ConstantOfShape.
    Paths are relative to /repo/rust/jstprove_circuits/src/circuit_functions, [inf] is
    /repo/rust/jstprove_onnx/src/shape_inference.rs and [meta] is
    /repo/rust/jstprove_circuits/src/expander_metadata.rs.  [None] is an Err or a panic.
    Simplified: products of dimensions are exact; names are left out; a tensor is in row-major
    order whatever its memory layout. *)
From Coq Require Import List Arith Bool ZArith QArith Qround.
From Verif Require Import Base.Array Spec.Shapes Spec.Tensors Model.Shapes Model.DataMovement.
From Verif Require Model.Constants.
Import ListNotations.
Local Open Scope nat_scope.

(** *** Reshape *)
(** inf:1186-1303 infer_reshape; the first loop keeps the product of the known dimensions, the
    place of the last -1, the number of -1 and whether there is a 0 *)
Definition target_step (allowzero : bool) (input_shape : list nat) (e : nat * Z) (st : nat * option nat * nat * bool)
    : option (nat * option nat * nat * bool) :=
  let '(i, d) := e in
  let '(known_product, minus_one_idx, minus_one_count, has_zero) := st in
  if (d =? -1)%Z then Some (known_product, Some i, S minus_one_count, has_zero)
  else if (d =? 0)%Z then
    if allowzero then Some (0, minus_one_idx, minus_one_count, true)
    else let* k := aget input_shape i in Some (known_product * k, minus_one_idx, minus_one_count, true)
  else if (d <? -1)%Z then None
  else Some (known_product * Z.to_nat d, minus_one_idx, minus_one_count, has_zero).
Fixpoint target_loop (allowzero : bool) (input_shape : list nat) (l : list (nat * Z)) (st : nat * option nat * nat * bool) :=
  match l with [] => Some st | e :: r => let* st := target_step allowzero input_shape e st in target_loop allowzero input_shape r st end.
Definition out_dim (allowzero : bool) (input_shape : list nat) (e : nat * Z) : option nat :=
  let '(i, d) := e in
  if (d =? -1)%Z then Some 0 else if (d =? 0)%Z then (if allowzero then Some 0 else aget input_shape i) else Some (Z.to_nat d).
Definition infer_reshape (allowzero : bool) (input_shape : list nat) (target_shape : list Z) : option (list nat) :=
  let input_size := prod input_shape in
  let* (known_product, minus_one_idx, minus_one_count, has_zero) :=
    target_loop allowzero input_shape (enumerate target_shape) (1, None, 0, false) in
  let* _ := guard (negb (1 <? minus_one_count)) in
  let* _ := guard (negb (allowzero && has_zero && (0 <? minus_one_count))) in
  let* out_shape := omap (out_dim allowzero input_shape) (enumerate target_shape) in
  match minus_one_idx with
  | Some idx =>
      let* _ := guard (negb ((known_product =? 0) || negb (input_size mod known_product =? 0))) in
      aset out_shape idx (input_size / known_product)
  | None => let* _ := guard (input_size =? known_product) in Some out_shape
  end.
(** layers/reshape.rs:25-59 apply; [shape] is 68-85 with meta:496-540, the values of the second
    input, a constant of the model *)
Definition reshape {T} (shape : list Z) (x : tensor T) : option (tensor T) :=
  let* inferred_shape := infer_reshape_shape (Z.of_nat (length (flat x))) shape in
  from_shape_vec (map Z.to_nat inferred_shape) (flat x).
(** *** Flatten *)
(** inf:1305-1334 infer_flatten *)
Definition infer_flatten (input_shape : list nat) (raw_axis : Z) : option (list nat) :=
  let rank := Z.of_nat (length input_shape) in
  let* _ := guard (negb ((raw_axis <? - rank) || (rank <? raw_axis)))%Z in
  let axis := Z.to_nat (if (raw_axis <? 0)%Z then raw_axis + rank else raw_axis)%Z in
  Some [prod (firstn axis input_shape); prod (skipn axis input_shape)].
(** layers/flatten.rs:27-65 apply and build: the axis is read as a usize *)
Definition flatten {T} (raw_axis : Z) (x : tensor T) : option (tensor T) :=
  let* _ := guard (0 <=? raw_axis)%Z in
  let* shape := onnx_flatten (dims x) (Z.to_nat raw_axis) in
  from_shape_vec shape (flat x).

(** *** Squeeze and Unsqueeze *)
(** Where the axes come from, after the attribute: no second input, a Constant node, an
    initializer, or an input that is not a constant *)
Inductive axes_input := Omitted | ConstantNode (l : list Z) | Initializer (l : list Z) | Computed.
(** inf:1342-1362 resolve_axes_from_input *)
Definition resolve_axes (attr : option (list Z)) (i : axes_input) : option (option (list Z)) :=
  match attr, i with
  | Some v, _ => Some (Some v)
  | None, Omitted => Some None
  | None, ConstantNode v | None, Initializer v => Some (Some v)
  | None, Computed => None
  end.
(** layers/squeeze.rs:97-135 build, with meta:496-540: an initializer without elements is not
    attached to the parameters *)
Definition layer_axes (attr : option (list Z)) (i : axes_input) : option (list Z) :=
  match attr, i with
  | Some v, _ => Some v
  | None, Omitted | None, Computed | None, Initializer [] => None
  | None, ConstantNode v | None, Initializer v => Some v
  end.
Fixpoint distinct (l : list nat) : bool :=
  match l with [] => true | a :: r => negb (existsb (Nat.eqb a) r) && distinct r end.
(** inf:1403-1424 and 1480-1498: positions in range and without repetition; simplified: the
    order of the two checks, which only the message shows *)
Definition infer_axes (axes : list Z) (rank : nat) : option (list nat) :=
  let* l := omap (normalize_axis rank) axes in
  let* _ := guard (distinct l) in Some l.
(** inf:1434-1439, layers/squeeze.rs:58-62 *)
Definition remove_axes (axes shape : list nat) : list nat :=
  map snd (filter (fun e => negb (existsb (Nat.eqb (fst e)) axes)) (enumerate shape)).
Definition all_unit (axes shape : list nat) : bool :=
  forallb (fun ax => match aget shape ax with Some d => d =? 1 | None => false end) axes.
(** inf:1364-1447 infer_squeeze *)
Definition infer_squeeze (attr : option (list Z)) (i : axes_input) (input_shape : list nat) : option (list nat) :=
  let* axes := resolve_axes attr i in
  match axes with
  | None => Some (filter (fun d => negb (d =? 1)) input_shape)
  | Some [] => Some input_shape
  | Some axes =>
      let* l := infer_axes axes (length input_shape) in
      let* _ := guard (all_unit l input_shape) in
      Some (remove_axes l input_shape)
  end.
(** layers/squeeze.rs:26-64 squeezed_shape *)
Definition squeezed_shape (axes : option (list Z)) (input_shape : list nat) : option (list nat) :=
  match axes with
  | None => Some (filter (fun d => negb (d =? 1)) input_shape)
  | Some axes =>
      let* axes_u := normalize_axes axes (Z.of_nat (length input_shape)) in
      let* _ := guard (all_unit axes_u input_shape) in
      Some (remove_axes axes_u input_shape)
  end.
(** layers/squeeze.rs:68-95 apply *)
Definition squeeze {T} (attr : option (list Z)) (i : axes_input) (x : tensor T) : option (tensor T) :=
  let* out_shape := squeezed_shape (layer_axes attr i) (dims x) in
  from_shape_vec out_shape (flat x).

(** layers/unsqueeze.rs:32-60 ([checked], with the check that all dimensions were used) and
    inf:1508-1517; [rest] is [input_shape[j..]], [i] counts up to the rank *)
Fixpoint place_dims (checked : bool) (axes : list nat) (i n : nat) (rest : list nat) : option (list nat) :=
  match n with
  | O => match rest with [] => Some [] | _ => if checked then None else Some [] end
  | S n => if existsb (Nat.eqb i) axes then let* out := place_dims checked axes (S i) n rest in Some (1 :: out)
      else match rest with
           | [] => None
           | d :: rest => let* out := place_dims checked axes (S i) n rest in Some (d :: out)
           end
  end.
(** inf:1449-1522 infer_unsqueeze *)
Definition infer_unsqueeze (attr : option (list Z)) (i : axes_input) (input_shape : list nat) : option (list nat) :=
  let* axes := resolve_axes attr i in
  let* axes := axes in
  let new_rank := length input_shape + length axes in
  let* l := infer_axes axes new_rank in
  place_dims false l 0 new_rank input_shape.
(** layers/unsqueeze.rs:26-63 unsqueezed_shape, 66-95 apply, 97-124 build *)
Definition unsqueeze {T} (attr : option (list Z)) (i : axes_input) (x : tensor T) : option (tensor T) :=
  let* axes := layer_axes attr i in
  let rank_out := length (dims x) + length axes in
  let* axes_u := normalize_axes axes (Z.of_nat rank_out) in
  let* out_shape := place_dims true axes_u 0 rank_out (dims x) in
  from_shape_vec out_shape (flat x).

(** *** Range *)
(** layers/range.rs:31-41: a constant of the circuit, of modulus [p]; the subtraction panics below zero *)
Definition range_constant (p v : Z) : option Z :=
  if (0 <=? v)%Z then Some (v mod p)%Z else let* _ := guard (Z.abs v <=? p)%Z in Some ((p - Z.abs v) mod p)%Z.
(** i64::saturating_add *)
Definition saturating_add (a b : Z) : Z := Z.max (- 2 ^ 63) (Z.min (2 ^ 63 - 1) (a + b)).
Fixpoint range_sequence (n : nat) (current delta : Z) : list Z :=
  match n with O => [] | S n => current :: range_sequence n (saturating_add current delta) delta end.
(** layers/range.rs:101-134 build; the difference must fit an i64 (a panic or a wrap-around) *)
Definition range_build (start limit delta : Z) : option (list Z) :=
  let* _ := guard (negb (delta =? 0))%Z in
  let* range_len :=
    if ((0 <? delta) && (start <? limit) || (delta <? 0) && (limit <? start))%Z then
      let* _ := guard ((- 2 ^ 63 <=? limit - start) && (limit - start <? 2 ^ 63))%Z in
      Some (Z.to_nat (div_ceil (Z.abs (limit - start)) (Z.abs delta)))
    else Some 0 in
  Some (range_sequence range_len start delta).
(** layers/range.rs:24-54 apply *)
Definition range_layer (p start limit delta : Z) : option (tensor Z) :=
  let* sequence := range_build start limit delta in
  let* constants := omap (range_constant p) sequence in
  from_shape_vec [length sequence] constants.
(** inf:787-819 infer_range; f64 values are rationals *)
Definition infer_range (start limit delta : Q) : option (list nat) :=
  let* _ := guard (negb (Qeq_bool delta 0)) in
  Some [Z.to_nat (Z.max 0 (Qceiling ((limit - start) / delta)))].
(** layers/range.rs:82-103: a scalar constant of the model, as the circuit holds it *)
Definition load_scalar (w : Constants.tensor_data) : option Z :=
  match Constants.as_i64_vec w with [v] => Some v | _ => None end.

(** *** Shape *)
(** layers/shape.rs:153-162, inf:2256-2265; an attribute left out is 0 or the rank *)
Definition shape_bound (rank : nat) (raw : Z) : nat :=
  if (raw <? 0)%Z then Z.to_nat (Z.max 0 (Z.of_nat rank + raw)) else Nat.min (Z.to_nat raw) rank.
(** layers/shape.rs:104-175 build *)
Definition shape_build (start_attr end_attr : option Z) (input_shape : list nat) : list nat :=
  let rank := length input_shape in
  let start := shape_bound rank (match start_attr with Some v => v | None => 0%Z end) in
  let stop := shape_bound rank (match end_attr with Some v => v | None => Z.of_nat rank end) in
  if start <? stop then firstn (stop - start) (skipn start input_shape) else [].
(** layers/shape.rs:42-66 apply; [input_shape] is the announced shape of the input *)
Definition shape_layer (p : Z) (start_attr end_attr : option Z) (input_shape : list nat) : option (tensor Z) :=
  let d := shape_build start_attr end_attr input_shape in
  from_shape_vec [length d] (map (fun v => Z.of_nat v mod p)%Z d).
(** inf:2247-2273 infer_shape_op *)
Definition infer_shape_op (start_attr end_attr : option Z) (input_shape : list nat) : list nat :=
  let rank := length input_shape in
  let start := shape_bound rank (match start_attr with Some v => v | None => 0%Z end) in
  let stop := shape_bound rank (match end_attr with Some v => v | None => Z.of_nat rank end) in
  [stop - start].

(** *** ConstantOfShape *)
(** layers/constant_of_shape.rs:69-97, with meta:569-585: the first element of the attribute *)
Definition fill_value (value : option Constants.tensor_data) : Z :=
  match value with
  | None => 0
  | Some w => match Constants.float_data w with
      | q :: _ => Constants.truncate q
      | [] => match Constants.int_data w with v :: _ => v | [] => 0 end
      end
  end.
(** layers/constant_of_shape.rs:24-45 apply, 66 build; a negative dimension is a number no
    vector can have ([None]) *)
Definition constant_of_shape (p : Z) (shape_data : list Z) (value : option Constants.tensor_data) : option (tensor Z) :=
  let* _ := guard (forallb (fun v => 0 <=? v)%Z shape_data) in
  let output_shape := map Z.to_nat shape_data in
  from_shape_vec output_shape (repeat (fill_value value mod p)%Z (prod output_shape)).
