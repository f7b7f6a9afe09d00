(** Conv: rust/jstprove_circuits/src/circuit_functions/layers/conv.rs and its shape inference,
    rust/jstprove_onnx/src/shape_inference.rs ("inf").  [None] is an Err or a panic.
    Simplified: sizes are exact (the conversions to i32 and u32 of sizes below 2^31). *)
From Coq Require Import List Arith Bool ZArith.
From Verif Require Model.Builder.
From Verif Require Import Base.Array Spec.Shapes Spec.Tensors Model.Shapes Model.DataMovement.
Import ListNotations.
Local Open Scope Z_scope.

(** conv.rs:177-184 Conv2DParams; the input shape is that of the input (86-90, 101-110) *)
Record conv_params := { dilations : list nat; kernel_shape : list nat; pads : list nat; strides : list nat; groups : list nat }.

(** inf:821-923 infer_conv *)
Definition infer_conv (input_shape weight_shape : list nat) (kernel strides_attr pads_attr dilations_attr : option (list nat))
    : option (list nat) :=
  let kernel := match kernel with
    | Some v => v
    | None => if (3 <=? length weight_shape)%nat then skipn 2 weight_shape else [1%nat]
    end in
  let st := match strides_attr with Some v => v | None => repeat 1%nat (length kernel) end in
  let pd := match pads_attr with Some v => v | None => repeat 0%nat (2 * length kernel) end in
  let dl := match dilations_attr with Some v => v | None => repeat 1%nat (length kernel) end in
  let* _ := guard (2 <=? length weight_shape)%nat in
  let* c_out := aget weight_shape 0 in
  let sd := length kernel in
  let* _ := guard (2 + sd <=? length input_shape)%nat in
  let* _ := guard (negb ((length pd <? 2 * sd) || (length dl <? sd) || (length st <? sd))%nat) in
  let* n := aget input_shape 0 in
  let* out := omap (fun i =>
    let* in_dim := aget input_shape (2 + i) in
    let* p0 := aget pd i in
    let* p1 := aget pd (sd + i) in
    let* k := aget kernel i in
    let* d := aget dl i in
    let* s := aget st i in
    let* _ := guard (negb (k =? 0)%nat) in
    let effective := ((k - 1) * d + 1)%nat in
    let padded := (in_dim + (p0 + p1))%nat in
    let* _ := guard (negb (s =? 0)%nat) in
    let* _ := guard (negb (padded <? effective)%nat) in
    Some ((padded - effective) / s + 1)%nat) (seq 0 sd) in
  Some (n :: c_out :: out).

(** conv.rs:207-254 set_default_params *)
Definition set_default_params (input_shape : list nat) (P : conv_params) : option conv_params :=
  let* _ := guard (negb (length input_shape <? 3)%nat) in
  let spatial := skipn 2 input_shape in
  Some {| dilations := if (length (dilations P) =? 0)%nat then repeat 1%nat (length spatial) else dilations P;
          kernel_shape := if (length (kernel_shape P) =? 0)%nat then spatial else kernel_shape P;
          pads := if (length (pads P) =? 0)%nat then repeat 0%nat (length spatial * 2) else pads P;
          strides := if (length (strides P) =? 0)%nat then repeat 1%nat (length spatial) else strides P;
          groups := groups P |}.

(** conv.rs:268-332 not_yet_implemented_conv; the dilations are all equal when the least is
    the greatest *)
Definition not_yet_implemented_conv (input_shape : list nat) (P : conv_params) : option unit :=
  let* _ := guard (negb (length input_shape <? 2)%nat) in
  let* g := aget (groups P) 0 in
  let* _ := guard (negb (g =? 0)%nat) in
  let* channels := aget input_shape 1 in
  let* _ := guard (channels mod g =? 0)%nat in
  let* _ := guard (negb (1 <? g)%nat) in
  let* _ := guard (hd 1 (dilations P) =? 1)%nat in
  let* _ := guard (forallb (Nat.eqb (hd 1%nat (dilations P))) (dilations P)) in
  let* _ := guard (negb (length input_shape <=? 3)%nat) in
  guard (negb (5 <=? length input_shape)%nat).

(** i32_to_usize *)
Definition i32_to_usize (z : Z) : option nat := if z <? 0 then None else Some (Z.to_nat z).
(** ndarray's [a..b] on an axis of size [len]: panics when an end is beyond the axis, empty
    when b < a *)
Definition axis_slice (len a b : nat) : option (list nat) :=
  let* _ := guard ((a <=? len) && (b <=? len))%nat in Some (seq a (b - a)).
(** [(b..e).step_by(s)] *)
Definition step_by (b e : Z) (s : nat) : list Z :=
  map (fun k => b + Z.of_nat k * Z.of_nat s) (seq 0 (Z.to_nat ((e - b + Z.of_nat s - 1) / Z.of_nat s))).
(** [t.slice(s![n..=n, c..=c, rows, cols])], in row-major order *)
Definition block (t : tensor Z) (n c : nat) (rows cols : list nat) : option (list Z) :=
  omap (fun ij => elem t [n; c; fst ij; snd ij]) (list_prod rows cols).

Section Conv.
Variable p : Z.

(** conv.rs:555-566 flatten_and_perform_dot *)
Definition flatten_and_perform_dot (img w : list Z) : Z :=
  fold_left (fun sum ab => Builder.add p sum (Builder.mul p (fst ab) (snd ab))) (combine img w) (Builder.const p 0).

(** The rows (or columns) of the image under a kernel of size [k] placed at [io], on an axis
    of size [s]: conv.rs:501-503, 510-512, 514-516 *)
Definition image_range (k s : nat) (io : Z) : option (list nat) :=
  let o := - (Z.of_nat k mod 2) in
  let i := io + Z.of_nat k mod 2 in
  let* i1 := i32_to_usize (Z.max 0 (i + o)) in
  let* i2 := i32_to_usize (Z.min (i + o + Z.of_nat k) (Z.of_nat s)) in
  axis_slice s i1 i2.
(** The rows (or columns) of the kernel over the image; the weights have [wk]:
    conv.rs:522-529 *)
Definition kernel_range (k s wk : nat) (io : Z) : option (list nat) :=
  let o := - (Z.of_nat k mod 2) in
  let i := io + Z.of_nat k mod 2 in
  let* j1 := i32_to_usize (Z.max (- o - i) 0) in
  let* j2 := i32_to_usize (Z.min (Z.of_nat k) (Z.of_nat k + Z.of_nat s - (i + o + Z.of_nat k))) in
  axis_slice wk j1 j2.

(** conv.rs:494, 501-546: what one placement of the kernel adds *)
Definition placement (kh kw s_h s_w wkh wkw : nat) (x w : tensor Z) (n nw ch : nat) (io jo : Z) : option Z :=
  let* wc := aget (dims w) 1 in
  let* _ := guard (ch <? wc)%nat in
  let* rows := image_range kh s_h io in
  let* cols := image_range kw s_w jo in
  let* img := block x n ch rows cols in
  if (length rows =? wkh)%nat && (length cols =? wkw)%nat then
    let* ker := block w nw ch (seq 0 wkh) (seq 0 wkw) in
    Some (flatten_and_perform_dot img ker)
  else
    let* krows := kernel_range kh s_h wkh io in
    let* kcols := kernel_range kw s_w wkw jo in
    let* _ := guard ((length krows =? length rows) && (length kcols =? length cols))%nat in
    let* ker := block w nw ch krows kcols in
    Some (flatten_and_perform_dot img ker).

(** conv.rs:335-365 conv_shape_4_setup_res, at output channel [m] *)
Definition initial (bias : tensor Z) (c_out m : nat) : option Z :=
  match flat bias with
  | [] => Some (Builder.const p 0)
  | _ => let* d := aget (dims bias) 0 in let* _ := guard (d =? c_out)%nat in elem bias [m]
  end.

(** conv.rs:421-553 conv_shape_4.  The loops fill different cells independently: a cell
    starts from the bias and takes the placements that fall on it, over the channels and in
    the order of the loops. *)
Definition conv_shape_4 (P : conv_params) (x w bias : tensor Z) : option (tensor Z) :=
  let* _ := guard (negb (length (pads P) <? 4)%nat) in
  let* _ := guard (forallb (fun s => negb (s =? 0)%nat) (strides P)) in
  let* s_n := aget (dims x) 0 in
  let* s_c := aget (dims x) 1 in
  let* s_h := aget (dims x) 2 in
  let* s_w := aget (dims x) 3 in
  let* kh := aget (kernel_shape P) 0 in
  let* kw := aget (kernel_shape P) 1 in
  let* stride_h := aget (strides P) 0 in
  let* stride_w := aget (strides P) 1 in
  let* pad_0 := aget (pads P) 0 in
  let* pad_1 := aget (pads P) 1 in
  let* pad_2 := aget (pads P) 2 in
  let* pad_3 := aget (pads P) 3 in
  let* c_out := aget (dims w) 0 in
  let* wkh := aget (dims w) 2 in
  let* wkw := aget (dims w) 3 in
  let h_out := ((s_h + pad_0 + pad_2 - kh) / stride_h + 1)%nat in
  let w_out := ((s_w + pad_1 + pad_3 - kw) / stride_w + 1)%nat in
  let bh := - Z.of_nat pad_0 in
  let bw := - Z.of_nat pad_1 in
  let eh := Z.of_nat (h_out * stride_h) in
  let ew := Z.of_nat (w_out * stride_w) in
  let cell := fun at_ : nat * nat * nat * nat =>
    let '(n, nw, hr, wr) := at_ in
    let* start := initial bias c_out nw in
    for_in (seq 0 s_c) (fun ch acc =>
      fold_left (fun acc ij =>
        let* a := acc in
        let* s := placement kh kw s_h s_w wkh wkw x w n nw ch (fst ij) (snd ij) in
        Some (Builder.add p s a))
        (list_prod (filter (fun io => (io - bh) / Z.of_nat stride_h =? Z.of_nat hr) (step_by bh eh stride_h))
                   (filter (fun jo => (jo - bw) / Z.of_nat stride_w =? Z.of_nat wr) (step_by bw ew stride_w)))
        (Some acc)) start in
  let* out := omap cell (list_prod (list_prod (list_prod (seq 0 s_n) (seq 0 c_out)) (seq 0 h_out)) (seq 0 w_out)) in
  from_shape_vec [s_n; c_out; h_out; w_out] out.

(** conv.rs:591-610 conv_4d_run up to the rescaling *)
Definition conv_sums (P : conv_params) (x w bias : tensor Z) : option (tensor Z) :=
  let* P := set_default_params (dims x) P in
  let* _ := not_yet_implemented_conv (dims x) P in
  conv_shape_4 P x w bias.
End Conv.
