(** The layers that move data without computing:
    rust/jstprove_circuits/src/circuit_functions/layers/{transpose,slice,concat,split,pad,
    gather,gather_elements,scatter_nd,tile,expand}.rs, each run as the compiler runs it: the
    output shape comes from rust/jstprove_onnx/src/shape_inference.rs, [build] turns the
    attributes into an index map, [apply] moves the wires.  Line numbers "inf" refer to
    shape_inference.rs.

    [None] is an Err or a panic.  A tensor is its shape and its elements in row-major
    order; ndarray's memory layout (and so the "not contiguous" errors) is not modelled.
    i64 values are integers, usize values natural numbers; sizes are exact, and the
    casts of a negative i64 to usize, which all give a number above every dimension, are
    failures at the check that follows them.  Only ScatterND uses such a cast without a
    check, and only there is the machine word modelled.  The shape map entry of an input
    is the shape of the array given to [apply]; attributes and constant inputs are
    arguments.  Names are left out. *)
From Coq Require Import List Arith Bool ZArith.
From Verif Require Import Base.Array Spec.Shapes Spec.Tensors Model.Shapes.
Import ListNotations.
Local Open Scope list_scope.

(** ArrayD::from_shape_vec *)
Definition from_shape_vec {T} (shape : list nat) (data : list T) : option (tensor T) :=
  if length data =? prod shape then Some {| dims := shape; flat := data |} else None.
(** [index_map.iter().map(|&idx| data_flat[idx]).collect()], then from_shape_vec *)
Definition select {T} (shape index_map : list nat) (data : list T) : option (tensor T) :=
  let* out := omap (aget data) index_map in from_shape_vec shape out.
Definition enumerate {A} (l : list A) : list (nat * A) := combine (seq 0 (length l)) l.

(** The axis normalisation used by the layers below:
    transpose.rs:206-219, slice.rs:93-106, concat.rs:103-127, split.rs:164-184,
    gather_elements.rs:282-306, inf:1843-1856, 1909-1928, 2046-2071, 2592-2614 *)
Definition normalize_axis (rank : nat) (a : Z) : option nat :=
  let n := if (a <? 0)%Z then (Z.of_nat rank + a)%Z else a in
  if ((n <? 0) || (Z.of_nat rank <=? n))%Z then None else Some (Z.to_nat n).

(** *** Transpose *)
(** inf:1826-1886 infer_transpose; the attribute checks of transpose.rs:206-255 are the same *)
Definition resolve_perm (rank : nat) (perm : option (list Z)) : option (list nat) :=
  let* p := match perm with
    | Some raw => omap (normalize_axis rank) raw
    | None => Some (rev (seq 0 rank))
    end in
  let* _ := guard (length p =? rank) in
  let* _ := guard (length (nodup Nat.eq_dec p) =? length p) in
  Some p.
(** transpose.rs:71-95 build_index_map *)
Definition transpose_index_map (input_shape perm : list nat) : option (list nat) :=
  let* output_shape := omap (aget input_shape) perm in
  let* inv_perm := for_each (enumerate perm) (fun '(i, p) inv => aset inv p i) (repeat 0 (length perm)) in
  omap (fun out_flat =>
    let* out_coords := unravel out_flat output_shape in
    let* in_coords := omap (fun p => let* j := aget inv_perm p in aget out_coords j) (seq 0 (length input_shape)) in
    ravel in_coords input_shape) (seq 0 (prod output_shape)).
(** transpose.rs:154-277 build, 100-147 apply *)
Definition transpose {T} (perm : option (list Z)) (x : tensor T) : option (tensor T) :=
  let input_shape := dims x in
  let* p := resolve_perm (length input_shape) perm in
  let* output_shape := omap (aget input_shape) p in
  let* index_map := transpose_index_map input_shape p in
  let* _ := guard (forallb (fun idx => idx <? prod input_shape) index_map) in
  select output_shape index_map (flat x).

(** *** Slice *)
Definition clamp (lo hi v : Z) : Z := if (v <? lo)%Z then lo else if (hi <? v)%Z then hi else v.
(** usize::div_ceil *)
Definition div_ceil (a b : Z) : Z := ((a + b - 1) / b)%Z.
(** inf:1982-2140 infer_slice, all parameters constant *)
Definition infer_slice (input_shape : list nat) (starts ends : list Z) (axes_in steps_in : option (list Z)) : option (list nat) :=
  let rank := length input_shape in
  let* _ := guard (length starts =? length ends) in
  let* _ := guard (match axes_in with Some ax => length ax =? length starts | None => true end) in
  let* _ := guard (match steps_in with Some st => length st =? length starts | None => true end) in
  let axes := match axes_in with Some ax => ax | None => map Z.of_nat (seq 0 (length starts)) end in
  let steps := match steps_in with Some st => st | None => repeat 1%Z (length starts) end in
  for_each (enumerate axes) (fun '(i, axis_raw) out_shape =>
    let* axis := normalize_axis rank axis_raw in
    let* d := aget input_shape axis in
    let dim := Z.of_nat d in
    let s := nth i starts 0%Z in
    let start := clamp 0 dim (if (s <? 0)%Z then dim + s else s)%Z in
    let e := nth i ends dim in
    let stop := clamp 0 dim (if (e <? 0)%Z then dim + e else e)%Z in
    let step := nth i steps 1%Z in
    if (step <=? 0)%Z then None else
    aset out_shape axis (if (start <? stop)%Z then Z.to_nat (div_ceil (stop - start) step) else 0)) input_shape.
(** slice.rs:77-173 build_index_map *)
Definition slice_index_map (input_shape : list nat) (starts ends axes steps : list Z) (output_shape : list nat) : option (list nat) :=
  let rank := length input_shape in
  let* (axis_start, axis_step) := for_each (enumerate axes) (fun '(i, axis_raw) (st : list Z * list Z) =>
    let (axis_start, axis_step) := st in
    let* axis := normalize_axis rank axis_raw in
    let* d := aget input_shape axis in
    let dim := Z.of_nat d in
    let s := nth i starts 0%Z in
    let s_norm := clamp 0 dim (if (s <? 0)%Z then dim + s else s)%Z in
    let* axis_start := aset axis_start axis s_norm in
    let step := nth i steps 1%Z in
    if (step =? 0)%Z then None else
    let* axis_step := aset axis_step axis step in
    let e := nth i ends dim in
    let e_norm := clamp 0 dim (if (e <? 0)%Z then e + dim else e)%Z in
    let expected_len :=
      if (0 <? step)%Z then (if (s_norm <? e_norm)%Z then div_ceil (e_norm - s_norm) step else 0%Z)
      else (if (e_norm <? s_norm)%Z then div_ceil (s_norm - e_norm) (- step) else 0%Z) in
    let* o := aget output_shape axis in
    let* _ := guard (expected_len =? Z.of_nat o)%Z in
    Some (axis_start, axis_step)) (repeat 0%Z rank, repeat 1%Z rank) in
  omap (fun out_flat =>
    let* out_coords := unravel out_flat output_shape in
    let* in_coords := omap (fun ax =>
      let* s := aget axis_start ax in
      let* c := aget out_coords ax in
      let* st := aget axis_step ax in
      let* d := aget input_shape ax in
      let coord := (s + Z.of_nat c * st)%Z in
      if ((coord <? 0) || (Z.of_nat d <=? coord))%Z then None else Some (Z.to_nat coord)) (seq 0 rank) in
    ravel in_coords input_shape) (seq 0 (prod output_shape)).
(** slice.rs:211-369 build, 178-208 apply *)
Definition slice {T} (starts ends : list Z) (axes_in steps_in : option (list Z)) (x : tensor T) : option (tensor T) :=
  let input_shape := dims x in
  let* output_shape := infer_slice input_shape starts ends axes_in steps_in in
  let axes := match axes_in with Some ax => ax | None => map Z.of_nat (seq 0 (length starts)) end in
  let steps := match steps_in with Some st => st | None => repeat 1%Z (length starts) end in
  let* index_map := slice_index_map input_shape starts ends axes steps output_shape in
  select output_shape index_map (flat x).

(** *** Concat *)
(** ndarray::concatenate: an error without arrays, for an axis that does not exist and
    for shapes that differ on another axis; otherwise the rows of the arrays in turn. *)
Definition remove_axis (axis : nat) (shape : list nat) : list nat := firstn axis shape ++ skipn (S axis) shape.
Definition concatenate {T} (axis : nat) (arrays : list (tensor T)) : option (tensor T) :=
  match arrays with
  | [] => None
  | first :: _ =>
    let* _ := guard (axis <? length (dims first)) in
    let* _ := guard (forallb (fun a => if list_eq_dec Nat.eq_dec (remove_axis axis (dims a)) (remove_axis axis (dims first))
                                       then length (dims a) =? length (dims first) else false) arrays) in
    let outer := prod (firstn axis (dims first)) in
    let row a := prod (skipn axis (dims a)) in
    let data := concat (map (fun o => concat (map (fun a => firstn (row a) (skipn (o * row a) (flat a))) arrays)) (seq 0 outer)) in
    Some {| dims := firstn axis (dims first) ++ list_sum (map (fun a => nth axis (dims a) 0) arrays) :: skipn (S axis) (dims first);
            flat := data |}
  end.
(** inf:1893-1975 infer_concat *)
Definition infer_concat (shapes : list (list nat)) (raw_axis : Z) : option (list nat) :=
  match shapes with
  | [] => None
  | first :: rest =>
    let rank := length first in
    let* axis := normalize_axis rank raw_axis in
    for_each rest (fun s out_shape =>
      let* _ := guard (length s =? rank) in
      let* _ := guard (forallb (fun i => (i =? axis) || (nth i s 0 =? nth i first 0)) (seq 0 rank)) in
      let* o := aget out_shape axis in
      let* d := aget s axis in
      aset out_shape axis (o + d)) first
  end.
(** concat.rs:72-133 build, 35-66 apply *)
Definition concat_layer {T} (raw_axis : Z) (xs : list (tensor T)) : option (tensor T) :=
  let* _ := infer_concat (map dims xs) raw_axis in
  match xs with
  | [] => None
  | first :: _ => let* axis := normalize_axis (length (dims first)) raw_axis in concatenate axis xs
  end.

(** *** Split *)
(** inf:2581-2697 infer_split; [sizes] is the split input or attribute *)
Definition infer_split (input_shape : list nat) (raw_axis : Z) (sizes : option (list Z)) (num_outputs : nat) : option (list (list nat)) :=
  let rank := length input_shape in
  let* axis := normalize_axis rank raw_axis in
  let* axis_dim := aget input_shape axis in
  let* split_sizes := match sizes with
    | Some v => if existsb (fun s => (s <? 0)%Z) v then None else Some (map Z.to_nat v)
    | None =>
      let* _ := guard (negb (num_outputs =? 0)) in
      let* _ := guard (axis_dim mod num_outputs =? 0) in
      Some (repeat (axis_dim / num_outputs) num_outputs)
    end in
  let* _ := guard (length split_sizes =? num_outputs) in
  let* _ := guard (list_sum split_sizes =? axis_dim) in
  omap (fun sz => aset input_shape axis sz) split_sizes.
(** split.rs:63-77 build_split_index_map *)
Definition split_index_map (input_shape : list nat) (axis offset : nat) (output_shape : list nat) : option (list nat) :=
  omap (fun out_flat =>
    let* in_coords := unravel out_flat output_shape in
    let* c := aget in_coords axis in
    let* in_coords := aset in_coords axis (c + offset) in
    ravel in_coords input_shape) (seq 0 (prod output_shape)).
(** split.rs:129-218 build, 92-122 apply_multi *)
Definition split {T} (raw_axis : Z) (sizes : option (list Z)) (num_outputs : nat) (x : tensor T) : option (list (tensor T)) :=
  let input_shape := dims x in
  let* shapes := infer_split input_shape raw_axis sizes num_outputs in
  let* axis := normalize_axis (length input_shape) raw_axis in
  let* _ := guard (negb (num_outputs =? 0)) in
  let* (_, outputs) := for_each shapes (fun out_shape (st : nat * list (list nat * list nat)) =>
    let (offset, outputs) := st in
    let* index_map := split_index_map input_shape axis offset out_shape in
    let* d := aget out_shape axis in
    Some (offset + d, outputs ++ [(index_map, out_shape)])) (0, []) in
  omap (fun '(index_map, shape) => select shape index_map (flat x)) outputs.

(** *** Pad *)
(** inf:2517-2574 infer_pad *)
Definition infer_pad (input_shape : list nat) (pads : list Z) : option (list nat) :=
  let rank := length input_shape in
  let* _ := guard (length pads =? 2 * rank) in
  omap (fun i =>
    let* b := aget pads i in
    let* e := aget pads (rank + i) in
    let* d := aget input_shape i in
    if ((b <? 0) || (e <? 0))%Z then None else Some (d + Z.to_nat b + Z.to_nat e)) (seq 0 rank).
(** pad.rs:63-86 build_pad_index_map *)
Definition pad_index_map (input_shape output_shape pads_begin : list nat) : option (list (option nat)) :=
  omap (fun out_flat =>
    let* out_coords := unravel out_flat output_shape in
    let* in_coords := for_in (seq 0 (length input_shape)) (fun ax (in_coords : option (list nat)) =>
      match in_coords with
      | None => Some None
      | Some cs =>
        let* o := aget out_coords ax in
        let* b := aget pads_begin ax in
        let* d := aget input_shape ax in
        Some (if (b <=? o) && (o - b <? d) then Some (cs ++ [o - b]) else None)
      end) (Some []) in
    match in_coords with
    | None => Some None
    | Some cs => let* i := ravel cs input_shape in Some (Some i)
    end) (seq 0 (prod output_shape)).
(** Where the padding value comes from: nowhere (0), the value attribute of the older
    operator sets, the constant_value input when it is among the weights (pad.rs:262-263), the
    same input when it is not. *)
Inductive pad_value := ValueDefault | ValueAttribute (v : Z) | ValueWeight (v : Z) | ValueOther (v : Z).
(** pad.rs:138-298 build, 91-129 apply.  Only a value among the weights is looked at; the axes
    input is not.  [zero] is the wire api.constant(0). *)
Definition pad {T} (zero : T) (mode_constant : bool) (pads : list Z) (value : pad_value) (axes : option (list Z)) (x : tensor T) : option (tensor T) :=
  let input_shape := dims x in
  let* output_shape := infer_pad input_shape pads in
  let* _ := guard mode_constant in
  let* _ := guard (length pads =? 2 * length input_shape) in
  let* _ := guard (match value with ValueWeight v => v =? 0 | _ => true end)%Z in
  let* _ := guard (negb (existsb (fun p => (p <? 0)%Z) pads)) in
  let pads_begin := map Z.to_nat (firstn (length input_shape) pads) in
  let* index_map := pad_index_map input_shape output_shape pads_begin in
  let* out := omap (fun idx => match idx with Some i => aget (flat x) i | None => Some zero end) index_map in
  from_shape_vec output_shape out.

(** *** Gather *)
Definition MAX_AXIS_PAD := 4.
(** the loops [while shape.len() <= axis { shape.push(1) }] of gather.rs:90-93, inf:1667-1669 *)
Definition promote (shape : list nat) (axis : nat) : list nat := shape ++ repeat 1 (S axis - length shape).
(** inf:1600-1685 infer_gather *)
Definition infer_gather (data_shape indices_shape : list nat) (raw_axis : Z) : option (list nat) :=
  let data_shape := match data_shape with [] => [1] | _ => data_shape end in
  let a := if (raw_axis <? 0)%Z then (Z.of_nat (length data_shape) + raw_axis)%Z else raw_axis in
  if ((a <? 0) || (Z.of_nat (length data_shape + MAX_AXIS_PAD) <=? a))%Z then None else
  let axis := Z.to_nat a in
  let data_shape := promote data_shape axis in
  Some (firstn axis data_shape ++ indices_shape ++ skipn (S axis) data_shape).
(** gather.rs:185-300 build: the axis *)
Definition gather_axis (output_shape : list nat) (indices_rank : nat) (raw_axis : Z) : option nat :=
  let* _ := guard (indices_rank <=? length output_shape + 1) in
  let data_rank := length output_shape + 1 - indices_rank in
  if (raw_axis <? 0)%Z then
    let a := (Z.of_nat data_rank + raw_axis)%Z in
    if (a <? 0)%Z then None else Some (Z.to_nat a)
  else
    if (Z.of_nat (data_rank + MAX_AXIS_PAD) <=? raw_axis)%Z then None else Some (Z.to_nat raw_axis).
(** gather.rs:63-178 apply *)
Definition gather_apply {T} (axis : nat) (indices : list Z) (output_shape : list nat) (data : tensor T) : option (tensor T) :=
  let* data_shape :=
    if length (dims data) <=? axis then
      if length (dims data) + MAX_AXIS_PAD <=? axis then None else Some (promote (dims data) axis)
    else Some (dims data) in
  let* d_axis := aget data_shape axis in
  let outer_size := prod (firstn axis data_shape) in
  let slice_size := if axis + 1 <? length data_shape then prod (skipn (axis + 1) data_shape) else 1 in
  let* _ := guard (outer_size * length indices * slice_size =? prod output_shape) in
  let data_axis_stride := d_axis * slice_size in
  let* out := for_in (seq 0 outer_size) (fun outer_i out =>
    for_each indices (fun idx out =>
      let n := (if idx <? 0 then idx + Z.of_nat d_axis else idx)%Z in
      if ((n <? 0) || (Z.of_nat d_axis <=? n))%Z then None else
      let data_start := outer_i * data_axis_stride + Z.to_nat n * slice_size in
      let* _ := guard (data_start + slice_size <=? length (flat data)) in
      Some (out ++ firstn slice_size (skipn data_start (flat data)))) out) [] in
  from_shape_vec output_shape out.
Definition gather {T} (raw_axis : Z) (indices : tensor Z) (data : tensor T) : option (tensor T) :=
  let* output_shape := infer_gather (dims data) (dims indices) raw_axis in
  let* axis := gather_axis output_shape (length (dims indices)) raw_axis in
  gather_apply axis (flat indices) output_shape data.

(** *** GatherElements with constant indices *)
(** gather_elements.rs:326-334: the strides of a shape *)
Definition strides (shape : list nat) : option (list nat) :=
  for_in (rev (seq 0 (length shape - 1))) (fun i st =>
    let* s := aget st (i + 1) in
    let* d := aget shape (i + 1) in
    aset st i (s * d)) (repeat 1 (length shape)).
(** gather_elements.rs:309-374 *)
Definition gather_elements_map (data_shape : list nat) (axis : nat) (indices : tensor Z) : option (list nat) :=
  let rank := length data_shape in
  let* _ := guard (length (dims indices) =? rank) in
  let* _ := guard (negb (rank =? 0)) in
  let* data_strides := strides data_shape in
  let* indices_strides := strides (dims indices) in
  let* axis_dim := aget data_shape axis in
  let axis_len := Z.of_nat axis_dim in
  omap (fun '(flat_idx, idx_val) =>
    let* (_, data_flat_idx) := for_in (seq 0 rank) (fun dim (st : nat * nat) =>
      let (remaining, data_flat_idx) := st in
      let* is := aget indices_strides dim in
      let* ds := aget data_strides dim in
      let* _ := guard (negb (is =? 0)) in
      let coord := remaining / is in
      let remaining := remaining mod is in
      if dim =? axis then
        if ((idx_val <? - axis_len) || (axis_len <=? idx_val))%Z then None else
        let resolved := Z.to_nat (if (idx_val <? 0)%Z then idx_val + axis_len else idx_val)%Z in
        Some (remaining, data_flat_idx + resolved * ds)
      else Some (remaining, data_flat_idx + coord * ds)) (flat_idx, 0) in
    Some data_flat_idx) (firstn (prod (dims indices)) (enumerate (flat indices))).
(** gather_elements.rs:229-415 build, 62-107 apply; inf:752-755: the output has the shape of
    the indices *)
Definition gather_elements {T} (raw_axis : Z) (indices : tensor Z) (data : tensor T) : option (tensor T) :=
  let* axis := normalize_axis (length (dims data)) raw_axis in
  let* index_map := gather_elements_map (dims data) axis indices in
  select (dims indices) index_map (flat data).

(** *** ScatterND *)
(** [as usize] and wrapping usize arithmetic (release build) *)
Definition wrap (z : Z) : Z := (z mod 2 ^ 64)%Z.
(** scatter_nd.rs:22-30 ravel *)
Definition ravel_wrap (coords : list Z) (shape : list nat) : option Z :=
  let* (flat, _) := for_in (rev (seq 0 (length shape))) (fun i (st : Z * Z) =>
    let (flat, stride) := st in
    let* c := aget coords i in
    let* s := aget shape i in
    Some (wrap (flat + wrap (c * stride)), wrap (stride * Z.of_nat s))%Z) (0%Z, 1%Z) in
  Some flat.
(** scatter_nd.rs:158-222: the insertions into update_map, in order *)
Definition scatter_updates (data_shape indices_shape : list nat) (indices : list Z) : option (list (Z * nat)) :=
  let* _ := guard (1 <=? length indices_shape) in
  let* last_dim := aget indices_shape (length indices_shape - 1) in
  let* _ := guard (last_dim <=? length data_shape) in
  let num_updates := prod (firstn (length indices_shape - 1) indices_shape) in
  let slice_size := if last_dim <? length data_shape then prod (skipn last_dim data_shape) else 1 in
  let* rows := omap (fun update_idx =>
    let coord_start := update_idx * last_dim in
    let* coords := omap (fun j =>
      let* v := aget indices (coord_start + j) in
      let* d := aget data_shape j in
      Some (wrap (if v <? 0 then v + Z.of_nat d else v)%Z)) (seq 0 last_dim) in
    let* base := ravel_wrap coords (firstn last_dim data_shape) in
    let base_flat := wrap (base * Z.of_nat slice_size) in
    Some (map (fun s => (wrap (base_flat + Z.of_nat s), update_idx * slice_size + s)) (seq 0 slice_size))) (seq 0 num_updates) in
  Some (concat rows).
(** scatter_nd.rs:102-230 build, 33-94 apply.  The hash map keeps the last insertion of a
    key and apply writes each key once: together, the insertions written in order. *)
Definition scatter_nd {T} (indices : tensor Z) (updates data : tensor T) : option (tensor T) :=
  let* update_map := scatter_updates (dims data) (dims indices) (flat indices) in
  let* out := for_each update_map (fun '(data_idx, update_idx) out =>
    if (data_idx <? Z.of_nat (length out))%Z && (update_idx <? length (flat updates)) then
      let* u := aget (flat updates) update_idx in aset out (Z.to_nat data_idx) u
    else Some out) (flat data) in
  from_shape_vec (dims data) out.

(** *** Tile *)
(** inf:1524-1598 infer_tile *)
Definition infer_tile (input_shape : list nat) (repeats : list Z) : option (list nat) :=
  let* _ := guard (length repeats <=? length input_shape) in
  let repeats := repeat 1%Z (length input_shape - length repeats) ++ repeats in
  omap (fun '(d, r) => if (r <? 1)%Z then None else Some (d * Z.to_nat r)) (combine input_shape repeats).
(** tile.rs:65-157 build: the repeat counts *)
Definition tile_repeats (input_shape output_shape : list nat) : option (list nat) :=
  let* _ := guard (length input_shape =? length output_shape) in
  omap (fun '(out, inp) =>
    let* _ := guard (negb (out =? 0)) in
    let* _ := guard (negb (inp =? 0)) in
    let* _ := guard (out mod inp =? 0) in
    Some (out / inp)) (combine output_shape input_shape).
(** tile.rs:23-63 apply *)
Definition tile {T} (repeats : list Z) (x : tensor T) : option (tensor T) :=
  let* output_shape := infer_tile (dims x) repeats in
  let* reps := tile_repeats (dims x) output_shape in
  for_each (enumerate reps) (fun '(ax, rep) result =>
    let* _ := guard (negb (rep =? 0)) in
    if rep =? 1 then Some result else concatenate ax (repeat result rep)) x.

(** *** Expand *)
(** inf:1136-1161 broadcast_shapes *)
Definition broadcast_shapes (a b : list nat) : option (list nat) :=
  let max_rank := Nat.max (length a) (length b) in
  omap (fun i =>
    let* da := if i <? max_rank - length a then Some 1 else aget a (i - (max_rank - length a)) in
    let* db := if i <? max_rank - length b then Some 1 else aget b (i - (max_rank - length b)) in
    if da =? db then Some da else if da =? 1 then Some db else if db =? 1 then Some da else None) (seq 0 max_rank).
(** ndarray broadcast, for an array of the rank of the target: every dimension is kept or
    repeated from 1. *)
Definition nd_broadcast {T} (x : tensor T) (target : list nat) : option (tensor T) :=
  let* _ := guard (length (dims x) =? length target) in
  let* _ := guard (forallb (fun '(d, t) => (d =? t) || (d =? 1)) (combine (dims x) target)) in
  let* index_map := omap (fun out_flat =>
    let* oc := unravel out_flat target in
    ravel (map (fun '(c, d) => if d =? 1 then 0 else c) (combine oc (dims x))) (dims x)) (seq 0 (prod target)) in
  select target index_map (flat x).
(** utils/tensor_ops.rs:234-248 broadcast_array and expand.rs:69-97: missing leading
    dimensions are 1 *)
Definition broadcast_array {T} (x : tensor T) (target : list nat) : option (tensor T) :=
  let* _ := guard (length (dims x) <=? length target) in
  let* reshaped := from_shape_vec (repeat 1 (length target - length (dims x)) ++ dims x) (flat x) in
  nd_broadcast reshaped target.
(** inf:2275-2334 infer_expand, expand.rs:42-109 apply *)
Definition expand {T} (shape : list Z) (x : tensor T) : option (tensor T) :=
  let* target := omap (fun d => if (d <? 0)%Z then None else Some (Z.to_nat d)) shape in
  let* output_shape := broadcast_shapes (dims x) target in
  broadcast_array x output_shape.

(** *** Where *)
(** inf:2702-2730 infer_where *)
Definition where_shape (cond x y : list nat) : option (list nat) :=
  let* cx := broadcast_shapes cond x in
  broadcast_shapes cx y.
(** The positions read for each output element, where_op.rs:262-273 (build) and 151-155 (apply) *)
Definition where_indices (output_shape cond x y : list nat) : option (list (nat * nat * nat)) :=
  omap (fun out_flat =>
    let* oc := unravel out_flat output_shape in
    let* ci := broadcast_index oc cond (length output_shape) in
    let* xi := broadcast_index oc x (length output_shape) in
    let* yi := broadcast_index oc y (length output_shape) in
    Some (ci, xi, yi)) (seq 0 (prod output_shape)).
(** where_op.rs:249-280 build and 102-116, 165-175 apply, for a constant condition *)
Definition where_constant {T} (cond : tensor Z) (x y : tensor T) : option (tensor T) :=
  let* output_shape := where_shape (dims cond) (dims x) (dims y) in
  let* idx := where_indices output_shape (dims cond) (dims x) (dims y) in
  let* mask := omap (fun '(ci, xi, yi) => let* v := aget (flat cond) ci in Some (negb (v =? 0)%Z, xi, yi)) idx in
  let* out := omap (fun '(b, xi, yi) => if b : bool then aget (flat x) xi else aget (flat y) yi) mask in
  from_shape_vec output_shape out.

(** *** GatherElements with computed indices *)
(** gather_elements.rs:135-170: for each output element the positions, in the data, of the
    elements along the axis *)
Definition gather_slices (data_shape : list nat) (axis : nat) (indices_shape : list nat) : option (list (list nat)) :=
  let rank := length data_shape in
  let* _ := guard (length indices_shape =? rank) in
  let* _ := guard (negb (rank =? 0)) in
  let* data_strides := strides data_shape in
  let* indices_strides := strides indices_shape in
  let* axis_size := aget data_shape axis in
  let* _ := guard (negb (axis_size =? 0)) in
  let* axis_data_stride := aget data_strides axis in
  omap (fun flat_idx =>
    let* (_, base_flat) := for_in (seq 0 rank) (fun dim (st : nat * nat) =>
      let (remaining, base_flat) := st in
      let* is := aget indices_strides dim in
      let* ds := aget data_strides dim in
      let* _ := guard (negb (is =? 0)) in
      let coord := remaining / is in
      let remaining := remaining mod is in
      Some (remaining, if dim =? axis then base_flat else base_flat + coord * ds)) (flat_idx, 0) in
    Some (map (fun a => base_flat + a * axis_data_stride) (seq 0 axis_size))) (seq 0 (prod indices_shape)).
