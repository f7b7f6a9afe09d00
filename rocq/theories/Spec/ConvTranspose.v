(** The ONNX meaning of ConvTranspose on two spatial axes, without groups and dilations. *)
From Coq Require Import List Arith ZArith Bool.
From Verif Require Import Spec.Numbers Spec.Shapes Spec.Tensors Spec.Conv Model.ConvTranspose.
Import ListNotations.
Local Open Scope Z_scope.

(** Element ([r], [q]) of the image spreads, times the kernel, over the outputs from
    ([r] * down - top, [q] * across - left) on; an output collects all that reaches it. *)
Definition transposed_at (g : geometry) (channels h v kh kw : nat) (x w : tensor Z) (bias : nat -> Z) (n m i j : nat) : Z :=
  bias m + sum_to channels (fun c => sum_to kh (fun a => sum_to kw (fun b => sum_to h (fun r => sum_to v (fun q =>
    if (r * down g + a =? i + top g)%nat && (q * across g + b =? j + left g)%nat
    then plane x n c (Z.of_nat r) (Z.of_nat q) * plane w c m (Z.of_nat a) (Z.of_nat b) else 0))))).

(** The size of the output on an axis of size [d]; [extra] more positions are added at the end. *)
Definition spread (d k before after s extra : nat) : nat := (s * (d - 1) + k + extra - (before + after))%nat.

Definition transposed (g : geometry) (extra_h extra_w : nat) (x w b y : tensor Z) : Prop :=
  exists n ch h v m kh kw,
    dims x = [n; ch; h; v] /\ dims w = [ch; m; kh; kw] /\
    dims y = [n; m; spread h kh (top g) (bottom g) (down g) extra_h; spread v kw (left g) (right g) (across g) extra_w] /\
    forall c0 c1 c2 c3, in_range [c0; c1; c2; c3] (dims y) ->
      elem y [c0; c1; c2; c3] = Some (transposed_at g ch h v kh kw x w (bias_of b) c0 c1 c2 c3).

(** The operands fit: the channels agree, neither image nor kernel nor output is empty, the
    strides are positive, and a bias has one element per output channel. *)
Definition transpose_operands (g : geometry) (extra_h extra_w : nat) (x w b : tensor Z) : Prop :=
  well_formed x /\ well_formed w /\ (0 < down g)%nat /\ (0 < across g)%nat /\
  exists n ch h v m kh kw, dims x = [n; ch; h; v] /\ dims w = [ch; m; kh; kw] /\
    (0 < h)%nat /\ (0 < v)%nat /\ (0 < kh)%nat /\ (0 < kw)%nat /\
    (0 < spread h kh (top g) (bottom g) (down g) extra_h)%nat /\ (0 < spread v kw (left g) (right g) (across g) extra_w)%nat /\
    (flat b = [] \/ dims b = [m] /\ length (flat b) = m).

(** The attributes of the node say this, where an absent attribute has its ONNX default. *)
Definition says {A} (o : option A) (default v : A) : Prop := o = Some v \/ o = None /\ v = default.
Definition ct_attributes (a : ct_node) (g : geometry) (extra_h extra_w : nat) (w : tensor Z) : Prop :=
  kernel_attr a = Some (skipn 2 (dims w)) /\ says (strides_attr a) [1; 1]%nat [down g; across g] /\
  says (pads_attr a) [0; 0; 0; 0]%nat [top g; left g; bottom g; right g] /\
  says (output_padding_attr a) [0; 0]%nat [extra_h; extra_w] /\
  says (dilations_attr a) [1; 1]%nat [1; 1]%nat /\ says (group_attr a) 1%nat 1%nat /\ output_shape_attr a = None.

(** The node is malformed or uses what is not supported: a kernel_shape that is absent or not
    that of the weights, groups, dilations, strides of zero, attributes of the wrong length,
    operands of the wrong rank, channels that differ, a bias that is not one per channel. *)
Definition ct_refused (a : ct_node) (x w b : tensor Z) : Prop :=
  (kernel_attr a = None \/ exists v, kernel_attr a = Some v /\ (length v <> 2%nat \/ In 0%nat v \/ v <> skipn 2 (dims w))) \/
  (exists v, group_attr a = Some v /\ v <> 1%nat) \/
  (exists v d, dilations_attr a = Some v /\ In d v /\ d <> 1%nat) \/
  (exists v, strides_attr a = Some v /\ (In 0%nat v \/ length v <> 2%nat)) \/
  (exists v, pads_attr a = Some v /\ length v <> 4%nat) \/
  (exists v, output_padding_attr a = Some v /\ length v <> 2%nat) \/
  length (dims x) <> 4%nat \/ length (dims w) <> 4%nat \/ nth_error (dims w) 0 <> nth_error (dims x) 1 \/
  (flat b <> [] /\ dims b <> firstn 1 (skipn 1 (dims w))).
