(** ConvTranspose: rust/jstprove_circuits/src/circuit_functions/layers/conv_transpose.rs and its
    shape inference, rust/jstprove_onnx/src/shape_inference.rs ("inf").  [None] is an Err or a
    panic.  Simplified: sizes are exact, attributes are not negative (both readers refuse
    negative ones), and the look-up of tensors by name is left out; an absent bias is the empty
    tensor (conv_transpose.rs:89). *)
From Coq Require Import List Arith Bool ZArith.
From Verif Require Model.Builder.
From Verif Require Import Base.Array Spec.Shapes Spec.Tensors Model.Shapes Model.DataMovement.
Import ListNotations.
Local Open Scope Z_scope.

(** The attributes of the node; [None] is an absent attribute *)
Record ct_node := { kernel_attr : option (list nat); strides_attr : option (list nat); pads_attr : option (list nat);
  output_padding_attr : option (list nat); dilations_attr : option (list nat); output_shape_attr : option (list nat);
  group_attr : option nat }.
Definition or_else {A} (o : option A) (d : A) : A := match o with Some v => v | None => d end.

(** inf:2735-2919 infer_conv_transpose *)
Definition infer_conv_transpose (a : ct_node) (input_shape weight_shape : list nat) : option (list nat) :=
  let* _ := guard (2 <=? length weight_shape)%nat in
  let* c_out_per_group := aget weight_shape 1 in
  let group := or_else (group_attr a) 1%nat in
  let* _ := guard (negb (group =? 0)%nat) in
  let c_out := (c_out_per_group * group)%nat in
  let kernel := or_else (kernel_attr a) (if (3 <=? length weight_shape)%nat then skipn 2 weight_shape else [1%nat]) in
  let sd := length kernel in
  let st := or_else (strides_attr a) (repeat 1%nat sd) in
  let pd := or_else (pads_attr a) (repeat 0%nat (sd * 2)) in
  let op := or_else (output_padding_attr a) (repeat 0%nat sd) in
  let dl := or_else (dilations_attr a) (repeat 1%nat sd) in
  let* _ := guard (2 + sd <=? length input_shape)%nat in
  let* n := aget input_shape 0 in
  match output_shape_attr a with
  | Some spatial => let* _ := guard (length spatial =? sd)%nat in Some (n :: c_out :: spatial)
  | None =>
    let* _ := guard (length st =? sd)%nat in
    let* _ := guard ((length pd =? 0) || (length pd =? 2 * sd))%nat in
    let* _ := guard (length dl =? sd)%nat in
    let* _ := guard (length op =? sd)%nat in
    let* out := omap (fun i =>
      let* in_dim := aget input_shape (2 + i) in
      let* _ := guard (negb (in_dim =? 0)%nat) in
      let pad := if (2 * sd <=? length pd)%nat then (nth i pd 0 + nth (sd + i) pd 0)%nat else 0%nat in
      let* k := aget kernel i in
      let* s := aget st i in
      let* _ := guard (negb (k =? 0)%nat) in
      let effective := ((k - 1) * nth i dl 1 + 1)%nat in
      let out_dim := Z.of_nat s * (Z.of_nat in_dim - 1) + Z.of_nat effective - Z.of_nat pad + Z.of_nat (nth i op 0%nat) in
      let* _ := guard (negb (out_dim <=? 0)) in
      Some (Z.to_nat out_dim)) (seq 0 sd) in
    Some (n :: c_out :: out)
  end.

(** conv_transpose.rs:37-51 ConvTransposeLayer, without the weights *)
Record ct_params := { ct_kernel : list nat; ct_strides : list nat; ct_pads : list nat; ct_output_padding : list nat;
  ct_dilation : list nat; ct_group : nat }.
(** conv_transpose.rs:268-413 build *)
Definition ct_build (a : ct_node) : option ct_params :=
  let* kernel := kernel_attr a in
  let sr := length kernel in
  let* _ := guard (sr =? 2)%nat in
  let* _ := guard (negb (existsb (Nat.eqb 0) kernel)) in
  let group := or_else (group_attr a) 1%nat in
  let* _ := guard (group =? 1)%nat in
  let dilation := or_else (dilations_attr a) (repeat 1%nat sr) in
  let* _ := guard (forallb (Nat.eqb 1) dilation) in
  let strides := or_else (strides_attr a) (repeat 1%nat sr) in
  let pads := or_else (pads_attr a) (repeat 0%nat (2 * sr)) in
  let output_padding := or_else (output_padding_attr a) (repeat 0%nat sr) in
  let* _ := guard (length strides =? 2)%nat in
  let* _ := guard (length dilation =? 2)%nat in
  let* _ := guard (length output_padding =? 2)%nat in
  let* _ := guard (length pads =? 4)%nat in
  let* _ := guard (negb (existsb (Nat.eqb 0) strides)) in
  Some {| ct_kernel := kernel; ct_strides := strides; ct_pads := pads; ct_output_padding := output_padding;
          ct_dilation := dilation; ct_group := group |}.

Section ConvTranspose.
Variable p : Z.

(** conv_transpose.rs:153-158: the size of the output along an axis *)
Definition ct_out (stride size k dil out_pad before after : nat) : Z :=
  Z.of_nat stride * (Z.of_nat size - 1) + ((Z.of_nat k - 1) * Z.of_nat dil + 1) + Z.of_nat out_pad - (Z.of_nat before + Z.of_nat after).
(** conv_transpose.rs:219-226 and 228-236: the input position that reaches output [o] through
    element [ki] of the kernel *)
Definition inverse_map (o before ki dil stride size : nat) : option nat :=
  let num := Z.of_nat o + Z.of_nat before - Z.of_nat (ki * dil) in
  if (num <? 0) || negb (Z.to_nat num mod stride =? 0)%nat then None
  else let i := (Z.to_nat num / stride)%nat in if (size <=? i)%nat then None else Some i.

(** conv_transpose.rs:180-203: an output starts from its bias *)
Definition ct_initial (bias : tensor Z) (oc : nat) : option Z :=
  match flat bias with [] => Some (Builder.const p 0) | _ => elem bias [oc] end.
(** conv_transpose.rs:92-249 apply, up to the rescaling.  The loops over the outputs (213-216)
    are the list of the outputs, each an independent accumulator. *)
Definition ct_sums (P : ct_params) (x w bias : tensor Z) : option (tensor Z) :=
  let* _ := guard (length (dims x) =? 4)%nat in
  let* n_batch := aget (dims x) 0 in
  let* c_in := aget (dims x) 1 in
  let* h_in := aget (dims x) 2 in
  let* w_in := aget (dims x) 3 in
  let* kh := aget (ct_kernel P) 0 in
  let* kw := aget (ct_kernel P) 1 in
  let* _ := guard (length (dims w) =? 4)%nat in
  let* w0 := aget (dims w) 0 in
  let* w1 := aget (dims w) 1 in
  let* w2 := aget (dims w) 2 in
  let* w3 := aget (dims w) 3 in
  let c_out := (w1 * ct_group P)%nat in
  let* _ := guard (w0 =? c_in)%nat in
  let* _ := guard ((w2 =? kh) && (w3 =? kw))%nat in
  let* stride_h := aget (ct_strides P) 0 in
  let* stride_w := aget (ct_strides P) 1 in
  let* dil_h := aget (ct_dilation P) 0 in
  let* dil_w := aget (ct_dilation P) 1 in
  let* pad_h_begin := aget (ct_pads P) 0 in
  let* pad_w_begin := aget (ct_pads P) 1 in
  let* pad_h_end := aget (ct_pads P) 2 in
  let* pad_w_end := aget (ct_pads P) 3 in
  let* out_pad_h := aget (ct_output_padding P) 0 in
  let* out_pad_w := aget (ct_output_padding P) 1 in
  let out_h_i64 := ct_out stride_h h_in kh dil_h out_pad_h pad_h_begin pad_h_end in
  let out_w_i64 := ct_out stride_w w_in kw dil_w out_pad_w pad_w_begin pad_w_end in
  let* _ := guard (negb ((out_h_i64 <=? 0) || (out_w_i64 <=? 0))) in
  let out_h := Z.to_nat out_h_i64 in
  let out_w := Z.to_nat out_w_i64 in
  let* _ := match flat bias with
    | [] => Some tt
    | _ => let* _ := guard (length (dims bias) =? 1)%nat in let* d := aget (dims bias) 0 in guard (d =? c_out)%nat
    end in
  let cell := fun o : nat * nat * nat * nat => let '(n, oc, oh, ow) := o in
    let* start := ct_initial bias oc in
    for_in (seq 0 c_in) (fun ci acc =>
      for_in (seq 0 kh) (fun ki_h acc =>
        match inverse_map oh pad_h_begin ki_h dil_h stride_h h_in with
        | None => Some acc
        | Some ih =>
          for_in (seq 0 kw) (fun ki_w acc =>
            match inverse_map ow pad_w_begin ki_w dil_w stride_w w_in with
            | None => Some acc
            | Some iw =>
              let* a := elem x [n; ci; ih; iw] in
              let* b := elem w [ci; oc; ki_h; ki_w] in
              Some (Builder.add p acc (Builder.mul p a b))
            end) acc
        end) acc) start in
  let* out := omap cell (list_prod (list_prod (list_prod (seq 0 n_batch) (seq 0 c_out)) (seq 0 out_h)) (seq 0 out_w)) in
  from_shape_vec [n_batch; c_out; out_h; out_w] out.
End ConvTranspose.
