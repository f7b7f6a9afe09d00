(** Resize in nearest-neighbour mode: rust/jstprove_circuits/src/circuit_functions/layers/resize.rs.
    Simplifications: the coordinates are exact rationals instead of f64, and a tie is an exact
    half instead of one up to 1e-10. *)
From Coq Require Import List Arith Bool ZArith QArith Qround.
From Verif Require Import Base.Array Spec.Shapes Spec.Tensors Spec.Resize Model.Shapes Model.DataMovement.
Import ListNotations.
Local Open Scope nat_scope.

(** resize.rs:78-105 output_to_input_coord *)
Definition output_to_input_coord (out_idx in_size out_size : nat) (mode : coord_mode) : Q :=
  let o := qn out_idx in
  let in_f := qn in_size in
  let out_f := qn out_size in
  (match mode with
  | HalfPixel => (o + (1 # 2)) * in_f / out_f - (1 # 2)
  | Asymmetric => o * in_f / out_f
  | AlignCorners => if (out_size <=? 1)%nat then 0 else o * (in_f - 1) / (out_f - 1)
  | PytorchHalfPixel => if (1 <? out_size)%nat then (o + (1 # 2)) * in_f / out_f - (1 # 2) else 0
  | TfHalfPixelForNn => (o + (1 # 2)) * in_f / out_f
  end)%Q.
(** f64::round: halves away from zero *)
Definition round_away (x : Q) : Z :=
  (if Qle_bool 0 x then Qfloor (x + (1 # 2)) else Qceiling (x - (1 # 2)))%Q.
(** resize.rs:114-146 apply_nearest_rounding *)
Definition apply_nearest_rounding (x : Q) (in_size : nat) (m : nearest_mode) : option nat :=
  let* _ := guard (negb (in_size =? 0)) in
  let floor := inject_Z (Qfloor x) in
  let tie := Qeq_bool (x - floor) (1 # 2) in
  let idx := match m with
    | RoundPreferFloor => if tie then Qfloor x else round_away x
    | RoundPreferCeil => if tie then Qceiling x else round_away x
    | Floor => Qfloor x
    | Ceil => Qceiling x
    end in
  Some (Z.to_nat (Z.max 0 (Z.min (Z.of_nat in_size - 1) idx))).

(** resize.rs:196-218 build_nearest_index_map; unravel_index and ravel_index (172-192) are the
    functions of where_op.rs *)
Definition build_nearest_index_map (input_shape output_shape : list nat) (cm : coord_mode) (nm : nearest_mode) : option (list nat) :=
  omap (fun out_flat =>
    let* out_coords := unravel out_flat output_shape in
    let* in_coords := omap (fun d =>
      let* o := aget out_coords d in
      let* i := aget input_shape d in
      let* n := aget output_shape d in
      apply_nearest_rounding (output_to_input_coord o i n cm) i nm) (seq 0 (length output_shape)) in
    ravel in_coords input_shape) (seq 0 (prod output_shape)).

(** The inputs [sizes] and [scales]; one of them is a constant *)
Inductive resize_target := Sizes (sizes : list Z) | Scales (scales : list Q).
(** jstprove_onnx/src/shape_inference.rs:1687-1757 infer_resize; the f32 scales are rationals *)
Definition infer_resize (input_shape : list nat) (t : resize_target) : option (list nat) :=
  match t with
  | Sizes sizes =>
      let* _ := guard (length sizes =? length input_shape) in
      omap (fun s => if (s <? 0)%Z then None else Some (Z.to_nat s)) sizes
  | Scales scales =>
      let* _ := guard (length scales =? length input_shape) in
      omap (fun '(d, s) => if Qle_bool s 0 then None else Some (Z.to_nat (Qfloor (qn d * s)))) (combine input_shape scales)
  end.
(** resize.rs:412-606 build and 325-411 apply *)
Definition resize_nearest {T} (cm : coord_mode) (nm : nearest_mode) (t : resize_target) (x : tensor T) : option (tensor T) :=
  let* output_shape := infer_resize (dims x) t in
  let* index_map := build_nearest_index_map (dims x) output_shape cm nm in
  select output_shape index_map (flat x).
