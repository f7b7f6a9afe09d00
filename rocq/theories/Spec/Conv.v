(** The ONNX meaning of Conv on two spatial axes, without groups and dilations. *)
From Coq Require Import List Arith ZArith Bool.
From Verif Require Import Spec.Numbers Spec.Shapes Spec.Tensors Model.Conv.
Import ListNotations.
Local Open Scope Z_scope.

(** f 0 + ... + f (n-1) *)
Definition sum_to (n : nat) (f : nat -> Z) : Z := fold_right Z.add 0 (map f (seq 0 n)).

(** The element of a tensor of rank 4 at row [i] and column [j] of plane [n], [c]; the planes
    are surrounded by zeros. *)
Definition plane (t : tensor Z) (n c : nat) (i j : Z) : Z :=
  if (0 <=? i) && (0 <=? j) then
    match elem t [n; c; Z.to_nat i; Z.to_nat j] with Some v => v | None => 0 end
  else 0.

(** Strides down and across; padding at the top, left, bottom and right. *)
Record geometry := { down : nat; across : nat; top : nat; left : nat; bottom : nat; right : nat }.

(** The number of positions of a kernel of size [k] on an axis of size [d] with [a] zeros
    before and [b] after, moving by [s]. *)
Definition positions (d k a b s : nat) : nat := ((d + a + b - k) / s + 1)%nat.
Definition output_shape (g : geometry) (x w : tensor Z) : list nat :=
  match dims x, dims w with
  | [n; _; h; v], [m; _; kh; kw] =>
    [n; m; positions h kh (top g) (bottom g) (down g); positions v kw (left g) (right g) (across g)]
  | _, _ => []
  end.

(** Kernel [m] at position ([i], [j]) of image [n]: the bias plus the sum over the channels
    and over the kernel. *)
Definition conv_at (g : geometry) (channels kh kw : nat) (x w : tensor Z) (bias : nat -> Z) (n m i j : nat) : Z :=
  bias m + sum_to channels (fun c => sum_to kh (fun a => sum_to kw (fun b =>
    plane x n c (Z.of_nat (i * down g + a) - Z.of_nat (top g)) (Z.of_nat (j * across g + b) - Z.of_nat (left g)) *
    plane w m c (Z.of_nat a) (Z.of_nat b)))).
(** An absent bias is zero. *)
Definition bias_of (b : tensor Z) (m : nat) : Z := nth m (flat b) 0.

Definition convolved (g : geometry) (x w b y : tensor Z) : Prop :=
  exists n ch h v m kh kw,
    dims x = [n; ch; h; v] /\ dims w = [m; ch; kh; kw] /\
    dims y = output_shape g x w /\
    forall c0 c1 c2 c3, in_range [c0; c1; c2; c3] (dims y) ->
      elem y [c0; c1; c2; c3] = Some (conv_at g ch kh kw x w (bias_of b) c0 c1 c2 c3).

(** The operands fit: the channels agree, the kernel is not empty and not larger than the
    padded image, the kernel moves, and a bias has one element per kernel. *)
Definition conv_operands (g : geometry) (x w b : tensor Z) : Prop :=
  well_formed x /\ well_formed w /\ (flat b = [] \/ exists m, dims b = [m] /\ length (flat b) = m /\ hd_error (dims w) = Some m) /\
  (0 < down g)%nat /\ (0 < across g)%nat /\
  exists n ch h v m kh kw, dims x = [n; ch; h; v] /\ dims w = [m; ch; kh; kw] /\ (0 < kh)%nat /\ (0 < kw)%nat /\
    (kh <= h + top g + bottom g)%nat /\ (kw <= v + left g + right g)%nat.
(** No side is padded by more than the kernel. *)
Definition padding_within_kernel (g : geometry) (w : tensor Z) : Prop :=
  exists m ch kh kw, dims w = [m; ch; kh; kw] /\
    (top g <= kh)%nat /\ (bottom g <= kh)%nat /\ (left g <= kw)%nat /\ (right g <= kw)%nat.

(** The attributes of the node say this. *)
Definition attributes (P : conv_params) (g : geometry) (w : tensor Z) : Prop :=
  kernel_shape P = skipn 2 (dims w) /\ strides P = [down g; across g] /\ pads P = [top g; left g; bottom g; right g] /\
  dilations P = [1; 1]%nat /\ groups P = [1]%nat.

(** The output of the layer, from the sums at twice the scale: divided by the scale when the
    layer rescales, then ReLU when it is fused. *)
Definition after_layer (k : nat) (is_rescale is_relu : bool) (y : tensor Z) : tensor Z :=
  {| dims := dims y; flat := map (layer_output k is_rescale is_relu) (flat y) |}.
