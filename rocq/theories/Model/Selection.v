(** Layers that compare and select elements, over the circuit builder.
    Paths are relative to /repo/rust/jstprove_circuits/src/circuit_functions.
    A tensor of [Variable]s is a [tensor Z] of canonical residues.  Not modelled: names of
    tensors, the look-up of inputs by name, contiguity of the arrays (all are built row-major).
    The shapes of the shapes map are those of the tensors. *)
From Coq Require Import ZArith List Bool Arith.
From Verif Require Import Spec.Shapes Spec.Tensors Model.Builder Model.Gadgets Model.Layers Model.Shapes Model.DataMovement.
Import ListNotations.
Local Open Scope Z_scope.

(** An [Err] or panic while building *)
Definition lift {A} (o : option A) : prog A := match o with Some a => Ret a | None => Fail 70 end.
(** slice indexing *)
Definition get {A} (l : list A) (i : nat) : prog A := lift (nth_error l i).

Section Selection.
Variable p : Z.
Variable c : nat.

(** utils/tensor_ops.rs:19-43 load_circuit_constant, load_array_constants *)
Definition load_constants (x : tensor Z) : tensor Z := {| dims := dims x; flat := map (const p) (flat x) |}.

(** 1 - is_zero(v): where_op.rs:142-147, cast.rs:74-76 *)
Definition nonzero (v : Z) : prog Z :=
  let* iz := is_zero p v in
  Ret (sub p (const p 1) iz).

(** layers/where_op.rs:117-175 apply, for a condition that is computed *)
Definition where_runtime (cond x y : tensor Z) : prog (tensor Z) :=
  let* output_shape := lift (where_shape (dims cond) (dims x) (dims y)) in
  let* cond_flat := mapM nonzero (flat cond) in
  let* idx := lift (where_indices output_shape (dims cond) (dims x) (dims y)) in
  let* out := mapM (fun '(ci, xi, yi) =>
    let* b := get cond_flat ci in
    let* x_val := get (flat x) xi in
    let* y_val := get (flat y) yi in
    let diff := sub p x_val y_val in
    let selected := mul p b diff in
    Ret (add p selected y_val)) idx in
  lift (from_shape_vec output_shape out).

(** utils/tensor_ops.rs:210-225 broadcast_two_arrays *)
Definition broadcast_two_arrays {T} (a b : tensor T) : prog (tensor T * tensor T) :=
  let* output_shape := lift (determine_broadcast_shape (dims a) (dims b)) in
  let* a_bc := lift (broadcast_array a output_shape) in
  let* b_bc := lift (broadcast_array b output_shape) in
  Ret (a_bc, b_bc).
(** A loop over two broadcast arrays: equal.rs:84-112, and_op.rs:39-62, and
    gadgets/linear_algebra.rs:174-220 elementwise_op, whose reshape of the second operand is
    never taken here because the shapes agree after broadcasting *)
Definition elementwise (f : Z -> Z -> prog Z) (a b : tensor Z) : prog (tensor Z) :=
  let* ab := broadcast_two_arrays a b in
  let* out := mapM (fun '(u, v) => f u v) (combine (flat (fst ab)) (flat (snd ab))) in
  lift (from_shape_vec (dims (fst ab)) out).

(** layers/equal.rs:61-115 apply *)
Definition equal_runtime : tensor Z -> tensor Z -> prog (tensor Z) := elementwise (fun u v => is_zero p (sub p u v)).
(** layers/equal.rs:150-208 build and 42-60 apply, for two constants; the output shape is
    the inferred one (shape_inference.rs, broadcast_shapes) *)
Definition equal_constant (a b : tensor Z) : prog (tensor Z) :=
  let* output_shape := lift (broadcast_shapes (dims a) (dims b)) in
  let* a_bc := lift (broadcast_array a output_shape) in
  let* b_bc := lift (broadcast_array b output_shape) in
  lift (from_shape_vec output_shape (map (fun '(u, v) => if u =? v then const p 1 else const p 0) (combine (flat a_bc) (flat b_bc)))).
(** layers/and_op.rs:20-63 apply *)
Definition and_layer : tensor Z -> tensor Z -> prog (tensor Z) := elementwise (fun u v => Ret (mul p u v)).
(** layers/binary_arith.rs:27-67 apply *)
Definition add_layer : tensor Z -> tensor Z -> prog (tensor Z) := elementwise (fun u v => Ret (add p u v)).
Definition sub_layer : tensor Z -> tensor Z -> prog (tensor Z) := elementwise (fun u v => Ret (sub p u v)).
(** layers/not_op.rs:22-49 apply *)
Definition not_layer (x : tensor Z) : prog (tensor Z) :=
  let* out := mapM (fun v => let* _ := assert_bool p v in Ret (sub p (const p 1) v)) (flat x) in
  lift (from_shape_vec (dims x) out).
(** layers/cast.rs:16-34 SUPPORTED_CAST_TYPES and ONNX_BOOL, 45-89 apply *)
Definition supported_cast (to_type : Z) : bool := existsb (Z.eqb to_type) [1; 2; 3; 4; 5; 6; 7; 9; 10; 11; 12; 13; 16].
Definition cast_layer (to_type : Z) (x : tensor Z) : prog (tensor Z) :=
  if negb (supported_cast to_type) then Fail 71
  else if to_type =? 9 then
    let* out_flat := mapM (is_zero p) (flat x) in
    lift (from_shape_vec (dims x) (map (fun iz => sub p (const p 1) iz) out_flat))
  else Ret x.

(** layers/gather_elements.rs:181-193: the multiplexer over the elements along the axis;
    [a] is the running position *)
Fixpoint mux (idx idx_wrapped : Z) (a : Z) (slice : list Z) (mux_sum matched_sum : Z) : prog (Z * Z) :=
  match slice with
  | [] => Ret (mux_sum, matched_sum)
  | e :: r =>
      let* match_pos := is_zero p (sub p idx (const p a)) in
      let* match_neg := is_zero p (sub p idx_wrapped (const p a)) in
      let matched := add p match_pos match_neg in
      mux idx idx_wrapped (a + 1) r (add p mux_sum (mul p matched e)) (add p matched_sum matched)
  end.
(** layers/gather_elements.rs:170-201, one output element *)
Definition gather_dynamic_element (nb : nat) (idx : Z) (slice : list Z) : prog Z :=
  let axis_size := const p (zn (length slice)) in
  let* y := hint1 (HCustom 40) (axis_size :: idx :: slice) in
  let* sm := mux idx (add p idx axis_size) 0 slice (const p 0) (const p 0) in
  let* _ := assert_eq (snd sm) (const p 1) in
  let* _ := assert_eq y (fst sm) in
  let* _ := range_check p c y nb in
  Ret y.
(** layers/gather_elements.rs:108-225 apply, computed indices *)
Definition gather_elements_dynamic (nb : nat) (raw_axis : Z) (indices data : tensor Z) : prog (tensor Z) :=
  let* axis := lift (normalize_axis (length (dims data)) raw_axis) in
  let* slices := lift (gather_slices (dims data) axis (dims indices)) in
  let* out := mapM (fun '(idx, positions) =>
    let* slice := mapM (get (flat data)) positions in
    gather_dynamic_element nb idx slice) (combine (flat indices) slices) in
  lift (from_shape_vec (dims indices) out).
(** hints/gather_elements.rs:14-44; field_to_i64 (hints/mod.rs) reads residues above p/2 as
    negative; its saturation at the bounds of i64 (hints/mod.rs:98-117) is not modelled *)
Definition gather_elements_hint (ins : list Z) (n : nat) : option (list Z) :=
  match ins with
  | size :: idx :: data =>
      if (length data =? 0)%nat then None else
      let size := if p / 2 <? size then size - p else size in
      let i := if p / 2 <? idx then idx - p else idx in
      let resolved := if i <? 0 then i + size else i in
      (* [as usize] makes a negative number huge, and the test below refuses it *)
      if (resolved <? 0) || (zn (length data) <=? resolved) then None
      else option_map (fun v => [v]) (nth_error data (Z.to_nat resolved))
  | _ => None
  end.

(** layers/resize.rs:364-396 apply, linear mode, one output element: [xs] are the corner
    values, [ws] their quantised weights, the scale is 2^kappa *)
Definition resize_linear_element (kappa nb : nat) (xs ws : list Z) : prog Z :=
  let scale := const p (pow2 kappa) in
  let half_scale := const p (pow2 kappa / 2) in
  let w_vars := map (const p) ws in
  let* y := hint1 (HCustom 41) (xs ++ w_vars ++ [scale]) in
  let weighted_sum := fold_left (fun s xw => add p s (mul p (fst xw) (snd xw))) (combine xs w_vars) (const p 0) in
  let remainder := sub p (add p weighted_sum half_scale) (mul p y scale) in
  let* _ := range_check p c remainder kappa in
  let* _ := range_check p c y nb in
  Ret y.
(** hints/resize.rs:52-125: the rounded quotient, clamped to [0, i64::MAX] (the checks for
    overflow of 128-bit sums, and saturation of the corner values to i64, are not modelled) *)
Definition resize_hint (ins : list Z) (n : nat) : option (list Z) :=
  let m := length ins in
  if (m <? 3)%nat || (m mod 2 =? 0)%nat then None else
  let k := ((m - 1) / 2)%nat in
  let scale := nth (2 * k) ins 0 in
  if scale =? 0 then None else
  let sum := fold_left (fun s xw => s + (if p / 2 <? fst xw then fst xw - p else fst xw) * snd xw)
               (combine (firstn k ins) (firstn k (skipn k ins))) 0 in
  Some [const p (if 0 <=? sum then Z.min ((sum + scale / 2) / scale) (2 ^ 63 - 1) else 0)].
End Selection.
