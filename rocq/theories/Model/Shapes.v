(** Shape arithmetic of rust/jstprove_circuits/src/circuit_functions.  [None] is a
    panic or an Err.  Products of dimensions are exact natural numbers: the code's
    usize products agree with them whenever they fit the machine word. *)
From Coq Require Import List Arith Bool ZArith String.
From Verif Require Import Base.Array Base.Machine Spec.Shapes.
Import ListNotations.
Local Open Scope list_scope.
Local Notation length := List.length.

(** layers/where_op.rs:14-23 and layers/reduce_max.rs:25-34 unravel *)
Definition unravel (flat : nat) (shape : list nat) : option (list nat) :=
  let* (_, coords) := for_in (rev (seq 0 (length shape))) (fun i (st : nat * list nat) =>
    let (flat, coords) := st in
    let* s := aget shape i in
    if 0 <? s then
      let* coords := aset coords i (flat mod s) in
      Some (flat / s, coords)
    else Some (flat, coords)) (flat, repeat 0 (length shape)) in
  Some coords.

(** layers/where_op.rs:25-33 and layers/reduce_sum.rs:366-374 ravel *)
Definition ravel (coords shape : list nat) : option nat :=
  let* (flat, _) := for_in (rev (seq 0 (length shape))) (fun i (st : nat * nat) =>
    let (flat, stride) := st in
    let* c := aget coords i in
    let* s := aget shape i in
    Some (flat + c * stride, stride * s)) (0, 1) in
  Some flat.

(** layers/where_op.rs:35-44 broadcast_index *)
Definition broadcast_index (out_coords shape : list nat) (out_rank : nat) : option nat :=
  let rank := length shape in
  let* _ := guard (rank <=? out_rank) in
  let pad := out_rank - rank in
  let* _ := guard (pad <=? length out_coords) in
  let coords := map (fun cs => if snd cs =? 1 then 0 else fst cs) (combine (skipn pad out_coords) shape) in
  ravel coords shape.

(** utils/tensor_ops.rs:183-201 determine_broadcast_shape *)
Definition dim_or_1 (a : list nat) (i : nat) : option nat :=
  if 1 + i <=? length a then aget a (length a - (1 + i)) else Some 1.
Definition determine_broadcast_shape (a b : list nat) : option (list nat) :=
  let rank := Nat.max (length a) (length b) in
  for_in (seq 0 rank) (fun i result =>
    let* a_dim := dim_or_1 a i in
    let* b_dim := dim_or_1 b i in
    if (a_dim =? b_dim) || (a_dim =? 1) || (b_dim =? 1)
    then aset result (rank - 1 - i) (Nat.max a_dim b_dim)
    else None) (repeat 0 rank).

(** layers/reduce_sum.rs:379-425 collect_reduction_inputs *)
Definition reduction_base (out_coords axes : list nat) (keepdims : bool) (rank : nat) : option (list nat) :=
  if keepdims then Some out_coords else
  let* (in_coords, _) := for_in (seq 0 rank) (fun ax (st : list nat * nat) =>
    let (in_coords, out_idx) := st in
    if is_axis axes ax then let* in_coords := aset in_coords ax 0 in Some (in_coords, out_idx)
    else
      let* c := aget out_coords out_idx in
      let* in_coords := aset in_coords ax c in
      Some (in_coords, out_idx + 1)) (repeat 0 rank, 0) in
  Some in_coords.
Definition reduction_input (base axes sizes input_shape : list nat) (r : nat) : option nat :=
  let* (_, in_coords) := for_in (rev (seq 0 (length axes))) (fun i (st : nat * list nat) =>
    let (r_rem, in_coords) := st in
    let* ax := aget axes i in
    let* sz := aget sizes i in
    let* _ := guard (0 <? sz) in
    let* in_coords := aset in_coords ax (r_rem mod sz) in
    Some (r_rem / sz, in_coords)) (r, base) in
  ravel in_coords input_shape.
Definition collect_reduction_inputs (out_coords axes : list nat) (keepdims : bool) (input_shape : list nat) (rank : nat)
    : option (list nat) :=
  let* base := reduction_base out_coords axes keepdims rank in
  let* sizes := omap (fun ax => aget input_shape ax) axes in
  omap (reduction_input base axes sizes input_shape) (seq 0 (prod sizes)).

(** utils/shaping.rs:16-67 normalize_axes.  The hash set is the list of its elements;
    sort_unstable on distinct integers is insertion sort. *)
Fixpoint insert (x : nat) (l : list nat) : list nat :=
  match l with [] => [x] | y :: r => if x <=? y then x :: l else y :: insert x r end.
Definition sort_unstable (l : list nat) : list nat := fold_right insert [] l.
Definition normalize_axes (axes : list Z) (rank : Z) : option (list nat) :=
  let* rank_i64 := signed U64 rank in
  let* out := for_each axes (fun a out =>
    let* ax := if (a <? 0)%Z then signed U64 (a + rank_i64) else Some a in
    if ((ax <? 0) || (rank_i64 <=? ax))%Z then None else
    let ax := Z.to_nat ax in
    if existsb (Nat.eqb ax) out then None else Some (out ++ [ax])) [] in
  Some (sort_unstable out).

(** utils/shaping.rs:104-117 onnx_flatten, on shapes (the data keep their order) *)
Definition onnx_flatten (shape : list nat) (axis : nat) : option (list nat) :=
  if length shape <? axis then None else Some [prod (firstn axis shape); prod (skipn axis shape)].

(** utils/shaping.rs:154-186 get_inputs: the insertions into the result map, in order.
    An array is its shape and its elements in row-major order, and
    ArrayD::from_shape_vec fails unless their number is the product of the shape. *)
Definition get_inputs {T} (v : list T) (inputs : list (string * list nat))
    : option (list (string * (list nat * list T))) :=
  let total_required := list_sum (map (fun i => prod (snd i)) inputs) in
  if negb (length v =? total_required) then None else
  let* (_, result) := for_each inputs (fun (input : string * list nat) (st : nat * list (string * (list nat * list T))) =>
    let (name, shape) := input in
    let (start, result) := st in
    let num := prod shape in
    let* _ := guard (start + num <=? length v) in
    let slice := firstn num (skipn start v) in
    let* _ := guard (length slice =? prod shape) in
    Some (start + num, result ++ [(name, (shape, slice))])) (0, []) in
  Some result.

(** utils/shaping.rs:307-368 infer_reshape_shape; [acc * d] must fit usize (a panic or a
    wrap-around in the code, [None] here) *)
Definition infer_reshape_shape (input_size : Z) (shape : list Z) : option (list Z) :=
  let* (known, minus_one) := for_each shape (fun d (st : Z * bool) =>
    let (acc, minus_one) := st in
    if (d =? -1)%Z then (if minus_one then None else Some (acc, true))
    else if (d <=? 0)%Z then None
    else let* acc := unsigned U64 (acc * d) in Some (acc, minus_one)) (1%Z, false) in
  if minus_one && negb (input_size mod known =? 0)%Z then None else
  if negb minus_one && negb (known =? input_size)%Z then None else
  Some (map (fun d => if (d =? -1)%Z then (input_size / known)%Z else d) shape).

(** The result of get_inputs as a hash map: a later insertion replaces an earlier one. *)
Definition map_get {T} (insertions : list (string * T)) (name : string) : option T :=
  option_map snd (find (fun e => String.eqb (fst e) name) (rev insertions)).
