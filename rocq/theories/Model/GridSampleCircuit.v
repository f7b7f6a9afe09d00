(** GridSample: rust/jstprove_circuits/src/circuit_functions/layers/gridsample.rs, the parts that
    make constraints.  The look-up of tensors by name and the layout of arrays are not modelled. *)
From Coq Require Import List Arith Bool ZArith.
From Verif Require Base.Array.
From Verif Require Import Spec.Shapes Spec.Tensors Spec.GridSample Model.DataMovement Model.GridSample Model.Builder Model.Gadgets Model.Selection Model.Gemm.
Import ListNotations.
Local Open Scope Z_scope.

Section GridSample.
Variable p : Z.
Variable c : nat.

(** gridsample.rs:381-394 and 475-488: the constraints on one output, the same in both modes *)
Definition check_interpolation (kappa nb : nat) (corners weights : list Z) (y : Z) : prog Z :=
  let weighted_sum := fold_left (fun s xw => add p s (mul p (fst xw) (snd xw))) (combine corners weights) (const p 0) in
  let sum_plus_half := add p weighted_sum (const p (pow2 kappa / 2)) in
  let y_times_scale := mul p y (const p (pow2 kappa)) in
  let remainder := sub p sum_plus_half y_times_scale in
  let* _ := range_check p c remainder kappa in
  let* _ := range_check p c y nb in
  Ret y.
(** gridsample.rs:356-394: one output of a constant grid *)
Definition bilinear_element (kappa nb : nat) (corners weights : list Z) : prog Z :=
  let w_vars := map (const p) weights in
  let* y := hint1 (HCustom 50) (corners ++ w_vars ++ [const p (pow2 kappa)]) in
  check_interpolation kappa nb corners w_vars y.
(** gridsample.rs:344-398 and 498-506 *)
Definition gridsample_bilinear (kappa nb : nat) (pad : padding) (align : bool) (output_shape : list nat) (x : tensor Z) (grid_flat : list Z)
    : prog (tensor Z) :=
  match dims x, output_shape with
  | [n; ch; h_in; w_in], [_; _; h_out; w_out] =>
      let* per_output := lift (build_bilinear_per_output grid_flat (pow2 kappa) n ch h_in w_in h_out w_out pad align) in
      let* out := mapM (fun spec =>
        let* corners := lift (Array.omap (Array.aget (flat x)) (fst spec)) in
        bilinear_element kappa nb corners (snd spec)) per_output in
      lift (from_shape_vec output_shape out)
  | _, _ => Fail 100
  end.

(** gridsample.rs:456-488: one output of a computed grid; the hint has nine outputs
    (hints/gridsample_dynamic.rs:9-10) *)
Definition dynamic_element (kappa nb : nat) (hint_inputs : list Z) : prog Z :=
  let* hint_out := hintn (HCustom 51) hint_inputs 9 in
  check_interpolation kappa nb (firstn 4 (skipn 1 hint_out)) (firstn 4 (skipn 5 hint_out)) (nth 0 hint_out 0).
(** gridsample.rs:400-506; the codes of the padding modes are those of 689-693 *)
Definition gridsample_dynamic (kappa nb : nat) (pad : padding) (align : bool) (output_shape : list nat) (x g : tensor Z) : prog (tensor Z) :=
  match dims x, output_shape with
  | [n; ch; h_in; w_in], [_; _; h_out; w_out] =>
      let channel_size := (h_in * w_in)%nat in
      let* out := mapM (fun '(bn, bc, bh, bw) =>
        let channel_offset := (bn * ch * channel_size + bc * channel_size)%nat in
        let* channel_data := lift (Array.omap (fun i => Array.aget (flat x) (channel_offset + i)) (seq 0 channel_size)) in
        let sp := (bn * h_out * w_out + bh * w_out + bw)%nat in
        let* x_norm := lift (Array.aget (flat g) (sp * 2)) in
        let* y_norm := lift (Array.aget (flat g) (sp * 2 + 1)) in
        dynamic_element kappa nb
          ([const p (pow2 kappa); const p (Z.of_nat h_in); const p (Z.of_nat w_in); const p (if align then 1 else 0);
            const p (match pad with Zeros => 0 | Border => 1 | Reflection => 2 end)] ++ channel_data ++ [x_norm; y_norm]))
        (positions n ch h_out w_out) in
      lift (from_shape_vec output_shape out)
  | _, _ => Fail 101
  end.
End GridSample.
