(** GridSample: rust/jstprove_circuits/src/circuit_functions/layers/gridsample.rs, the parts that
    are computed when the circuit is built.  Simplifications: the coordinates are exact
    rationals instead of f64; a padding mode or an interpolation mode is one of those ONNX
    names (the code takes any other padding for border and any other mode for bilinear). *)
From Coq Require Import List Arith Bool ZArith QArith Qround.
From Verif Require Import Base.Array Spec.Shapes Spec.Tensors Spec.Resize Spec.GridSample Model.Shapes Model.DataMovement Model.Resize.
Import ListNotations.
Local Open Scope nat_scope.

(** f64::clamp *)
Definition qclamp (x lo hi : Q) : Q := if Qle_bool x lo then lo else if Qle_bool hi x then hi else x.
(** gridsample.rs:102-108 unnormalize *)
Definition unnormalize (norm : Q) (size : nat) (align : bool) : Q :=
  (if align then (norm + 1) / 2 * qn (size - 1) else (norm + 1) / 2 * qn size - (1 # 2))%Q.
(** f64::rem_euclid, for a positive divisor *)
Definition rem_euclid (x d : Q) : Q := (x - inject_Z (Qfloor (x / d)) * d)%Q.
(** gridsample.rs:112-128 reflect_coord *)
Definition reflect_coord (x : Q) (size : nat) (align : bool) : Q :=
  if (size <=? 1)%nat then 0%Q else
  let lo := (if align then 0 else - (1 # 2))%Q in
  let range := if align then qn (size - 1) else qn size in
  let period := (2 * range)%Q in
  let rel := rem_euclid (x - lo) period in
  let rel := if Qle_bool rel range then rel else (period - rel)%Q in
  qclamp (rel + lo) 0 (qn (size - 1)).
(** gridsample.rs:133-145 apply_padding_f *)
Definition apply_padding (x : Q) (size : nat) (pad : padding) (align : bool) : option Q :=
  match pad with
  | Zeros => if negb (Qle_bool (- (1 # 2)) x) || negb (Qle_bool x (qn size - (1 # 2))) then None else Some (qclamp x 0 (qn (size - 1)))
  | Reflection => Some (reflect_coord x size align)
  | Border => Some (qclamp x 0 (qn (size - 1)))
  end.
(** gridsample.rs:153-157 nearest_px *)
Definition nearest_px (x : Q) (size : nat) : nat :=
  Z.to_nat (Z.max 0 (Z.min (Z.of_nat (size - 1)) (Qfloor (x + (1 # 2))))).
(** gridsample.rs:166-173 bilinear_corners_1d *)
Definition bilinear_corners_1d (x : Q) (size : nat) : nat * nat * Q * Q :=
  let x_clamped := qclamp x 0 (qn (size - 1)) in
  let floor_f := Qfloor x_clamped in
  let ceil_idx := Nat.min (Z.to_nat (Qceiling x_clamped)) (size - 1) in
  let frac := (x_clamped - inject_Z floor_f)%Q in
  (Z.to_nat floor_f, ceil_idx, (1 - frac)%Q, frac).

(** The four nested loops over output positions (gridsample.rs:198-201, 251-254, 443-451), in order *)
Definition positions (n c h w : nat) : list (nat * nat * nat * nat) :=
  list_prod (list_prod (list_prod (seq 0 n) (seq 0 c)) (seq 0 h)) (seq 0 w).
(** gridsample.rs:203-208 and 255-260: the point of one output position *)
Definition grid_point (grid_flat : list Z) (alpha : Z) (h_in w_in h_out w_out : nat) (align : bool) (bn bh bw : nat) : option (Q * Q) :=
  let sp := bn * h_out * w_out + bh * w_out + bw in
  let* gx := aget grid_flat (sp * 2) in
  let* gy := aget grid_flat (sp * 2 + 1) in
  Some (unnormalize (inject_Z gx / inject_Z alpha) w_in align, unnormalize (inject_Z gy / inject_Z alpha) h_in align).
(** gridsample.rs:183-226 build_nearest_index_map *)
Definition build_nearest_index_map (grid_flat : list Z) (alpha : Z) (n c h_in w_in h_out w_out : nat) (pad : padding) (align : bool)
    : option (list (option nat)) :=
  omap (fun '(bn, bc, bh, bw) =>
    let* pt := grid_point grid_flat alpha h_in w_in h_out w_out align bn bh bw in
    let '(x_in, y_in) := pt in
    Some (let* y_p := apply_padding y_in h_in pad align in
          let* x_p := apply_padding x_in w_in pad align in
          Some (bn * c * h_in * w_in + bc * h_in * w_in + nearest_px y_p h_in * w_in + nearest_px x_p w_in)))
    (positions n c h_out w_out).
(** gridsample.rs:235-308 build_bilinear_per_output: corners and weights of each output *)
Definition build_bilinear_per_output (grid_flat : list Z) (alpha : Z) (n c h_in w_in h_out w_out : nat) (pad : padding) (align : bool)
    : option (list (list nat * list Z)) :=
  omap (fun '(bn, bc, bh, bw) =>
    let* pt := grid_point grid_flat alpha h_in w_in h_out w_out align bn bh bw in
    let '(x_in, y_in) := pt in
    let '(h_f, h_c, wh_f, wh_c) := bilinear_corners_1d y_in h_in in
    let '(w_f, w_c, ww_f, ww_c) := bilinear_corners_1d x_in w_in in
    let corners_hw := [(h_f, w_f); (h_f, w_c); (h_c, w_f); (h_c, w_c)] in
    let weights_f := [wh_f * ww_f; wh_f * ww_c; wh_c * ww_f; wh_c * ww_c]%Q in
    let in_bounds := match pad with
      | Zeros => match apply_padding y_in h_in Zeros align, apply_padding x_in w_in Zeros align with Some _, Some _ => true | _, _ => false end
      | _ => true
      end in
    Some (map (fun '(ch, cw) => bn * c * h_in * w_in + bc * h_in * w_in + ch * w_in + cw) corners_hw,
          map (fun q => if in_bounds then round_away (q * inject_Z alpha) else 0%Z) weights_f))
    (positions n c h_out w_out).

(** gridsample.rs:333-342 and 498-506: apply in nearest mode; build (510-716) takes the sizes of
    the input and the announced output *)
Definition gridsample_nearest {T} (zero : T) (alpha : Z) (pad : padding) (align : bool) (output_shape : list nat)
    (x : tensor T) (grid_flat : list Z) : option (tensor T) :=
  match dims x, output_shape with
  | [n; c; h_in; w_in], [_; _; h_out; w_out] =>
      let* index_map := build_nearest_index_map grid_flat alpha n c h_in w_in h_out w_out pad align in
      let* out := omap (fun entry => match entry with Some idx => aget (flat x) idx | None => Some zero end) index_map in
      from_shape_vec output_shape out
  | _, _ => None
  end.
(** /repo/rust/jstprove_onnx/src/shape_inference.rs:1763-1822 infer_gridsample *)
Definition infer_gridsample (x_shape grid_shape : list nat) : option (list nat) :=
  match x_shape, grid_shape with
  | [n; c; _; _], [n'; ho; wo; 2] => if (n' =? n)%nat then Some [n; c; ho; wo] else None
  | _, _ => None
  end.
