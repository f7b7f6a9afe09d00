(** What the circuit of an accepted Remainder proof says about the tensors of the
    model, and the integer inference it should agree with. *)
From Coq Require Import ZArith List Bool String.
From Verif Require Import Base.Array Spec.Numbers Spec.Remainder Model.Remainder.
Import ListNotations.
Local Open Scope Z_scope.

(** The value of every shred during verification. *)
Definition circuit_env (m : model) (pf : proof) (input : list Z) : option (shred -> option (list Z)) :=
  let m := apply_observed (pf_observed pf) m in
  let* public := prepare_public_shreds m input (pf_expected pf) (pf_observed pf) in
  let* (_, man) := build_circuit m (pow2_for (List.length input)) in
  Some (shred_env man public (pf_committed pf)).

(** The builder's state once the first [k] layers are built. *)
Definition state_after (m : model) (pf : proof) (input : list Z) (k : nat) : option bstate :=
  let m := apply_observed (pf_observed pf) m in
  let* b := init_state m (pow2_for (List.length input)) in
  build_layers m (firstn k (m_layers m)) b.

(** The vector of field elements the circuit assigns to a tensor, and the
    tensor's layout, once the first [k] layers are built. *)
Definition tensor_value (m : model) (pf : proof) (input : list Z) (k : nat) (name : string) : option (list Z) :=
  let* env := circuit_env m pf input in
  let* b := state_after m pf input k in
  let* n := hget (b_nodes b) name in
  eval_node env n.
Definition tensor_layout (m : model) (pf : proof) (input : list Z) (k : nat) (name : string) : option layout :=
  let* b := state_after m pf input k in hget (b_layouts b) name.

(** Layer [k] is [l], and no two layers share a name. *)
Definition layer_at (m : model) (k : nat) (l : layer) : Prop :=
  nth_error (m_layers m) k = Some l /\ NoDup (map l_name (m_layers m)).

(** The range checks of a layer exist: its width is set, by the model or by the
    proof. *)
Definition width_set (pf : proof) (l : layer) : Prop :=
  l_bits l <> None \/ hget (pf_observed pf) (l_name l) <> None.

(** The width in force: the proof's if it states one, else the model's. *)
Definition width_is (pf : proof) (l : layer) (n : nat) : Prop :=
  match hget (pf_observed pf) (l_name l) with Some k => n = k | None => l_bits l = Some n end.

(** Entry [(i, j)] of a weight matrix of shape [(rows, cols)]. *)
Definition matrix_entry (data : list Z) (cols i j : nat) : Z := entry data (i * cols + j).

(** A dense layer's weights: [k] inputs, [n] outputs, entry [(i, j)]; optional
    transposition. *)
Definition dense_dims (transB : bool) (rows cols : nat) : nat * nat := if transB then (cols, rows) else (rows, cols).
Definition dense_weight (transB : bool) (cols : nat) (data : list Z) (i j : nat) : Z :=
  if transB then matrix_entry data cols j i else matrix_entry data cols i j.

(** The third input of a layer as a constant vector; empty when absent. *)
Definition bias_vector (l : layer) : list Z :=
  match nth_error (l_inputs l) 2 with
  | Some name => match hget (l_weights l) name with Some w => snd w | None => [] end
  | None => [] end.

(** The product of a vector with column [j] of a weight matrix with [k] rows. *)
Definition dense_sum (weight : nat -> nat -> Z) (k : nat) (xs : list Z) (j : nat) : Z :=
  zsum (map (fun i => entry xs i * weight i j) (seq 0 k)).

(** An operand of an addition: a tensor computed before layer [k], or a constant
    of the layer padded with zeros to a power of two. *)
Definition operand_value (m : model) (pf : proof) (input : list Z) (k : nat) (l : layer) (name : string) (vs : list Z) : Prop :=
  tensor_value m pf input k name = Some vs \/
  exists w, hget (l_weights l) name = Some w /\ vs = snd w ++ repeat 0 (pow2_for (List.length (snd w)) - List.length (snd w)).

(** The operations whose layouts the builder and the verifier compute alike. *)
Definition layout_safe (o : op) : Prop := match o with LayerNorm | Transpose => False | _ => True end.

(** *** Images *)

(** The place of channel [c], row [h], column [w] in a flattened image. *)
Definition position (lay : layout) (c h w : nat) : nat :=
  match lay with
  | CHW _ height width => (c * (height * width) + (h * width + w))%nat
  | HWC _ width _ stride => ((h * width + w) * stride + c)%nat
  end.
Definition channels (lay : layout) : nat := match lay with CHW c _ _ => c | HWC _ _ c _ => c end.
Definition height (lay : layout) : nat := match lay with CHW _ h _ => h | HWC h _ _ _ => h end.
Definition width (lay : layout) : nat := match lay with CHW _ _ w => w | HWC _ w _ _ => w end.

(** Strides and paddings default to one and zero. *)
Definition stride (l : layer) (axis : nat) : nat := nth axis (l_strides l) 1%nat.
Definition pad_begin (l : layer) (axis : nat) : nat := nth axis (l_pads l) 0%nat.
Definition pad_end (l : layer) (axis : nat) : nat := nth (2 + axis) (l_pads l) 0%nat.
(** How many windows of [size] with the given stride fit into [total]. *)
Definition windows (total size st : nat) : nat := ((total - size) / st + 1)%nat.

(** The values in the window of [ph] rows and [pw] columns of channel [c] whose
    corner is row [h], column [w]. *)
Definition window_values (p : Z) (lay : layout) (xs : list Z) (ph pw c h w : nat) : list Z :=
  flat_map (fun i => map (fun j => signed p (entry xs (position lay c (h + i) (w + j)))) (seq 0 pw)) (seq 0 ph).

(** The pixel a kernel tap reads; zero in the padding. *)
Definition padded_pixel (lay : layout) (xs : list Z) (top left c h w : nat) : Z :=
  if ((top <=? h) && (h - top <? height lay) && (left <=? w) && (w - left <? width lay))%nat
  then entry xs (position lay c (h - top) (w - left)) else 0.

(** Output channel [co] of a convolution at the window whose corner is row [h],
    column [w]: kernels of shape [(_, cin, kh, kw)]. *)
Definition conv_sum (lay : layout) (xs kernel : list Z) (cin kh kw top left co h w : nat) : Z :=
  zsum (map (fun c => zsum (map (fun i => zsum (map (fun j =>
    padded_pixel lay xs top left c (h + i) (w + j) * entry kernel (((co * cin + c) * kh + i) * kw + j))
    (seq 0 kw))) (seq 0 kh))) (seq 0 cin)).

(** *** Integer inference of perceptrons *)

(** A dense layer: product with the weights, plus bias, divided by the scale and
    rounded down. *)
Definition dense (alpha : Z) (l : layer) (xs : list Z) : option (list Z) :=
  match nth_error (l_inputs l) 1 with
  | Some wn =>
      match hget (l_weights l) wn with
      | Some (rows :: cols :: _, data) =>
          let '(k, n) := dense_dims (l_transB l) rows cols in
          Some (map (fun j => (dense_sum (dense_weight (l_transB l) cols data) k xs j + entry (bias_vector l) j) / alpha)
                    (seq 0 n))
      | _ => None end
  | None => None end.

Fixpoint infer (alpha : Z) (ls : list layer) (xs : list Z) : option (list Z) :=
  match ls with
  | [] => Some xs
  | l :: r => match l_op l with
              | Gemm => match dense alpha l xs with Some ys => infer alpha r ys | None => None end
              | Relu => infer alpha r (map relu xs)
              | _ => None end
  end.

(** The layers form a chain from tensor [x] to tensor [o]. *)
Fixpoint chained (x : string) (ls : list layer) (o : string) : Prop :=
  match ls with
  | [] => x = o
  | l :: r => exists y, nth_error (l_inputs l) 0 = Some x /\ l_outputs l = [y] /\ chained y r o
  end.

(** Every dense layer but a last one is followed by a Relu whose width is set. *)
Fixpoint relu_guarded (ls : list layer) : Prop :=
  match ls with
  | [] => True
  | l :: r => match l_op l with
              | Relu => l_bits l <> None /\ relu_guarded r
              | Gemm => match r with
                        | [] => True
                        | l2 :: r2 => l_op l2 = Relu /\ l_bits l2 <> None /\ relu_guarded r2 end
              | _ => False end
  end.

(** Weights and biases are 64-bit integers, no matrix has more than 2^63 rows or
    columns, and no bias is longer than the layer's output. *)
Definition weights_ok (l : layer) : Prop :=
  forall name shape data, hget (l_weights l) name = Some (shape, data) ->
    (forall v, In v data -> i64 v) /\ (forall d, In d shape -> Z.of_nat d <= 2 ^ 63) /\
    (l_op l = Gemm -> forall rows cols rest, nth_error (l_inputs l) 1 = Some name -> shape = rows :: cols :: rest ->
       (List.length (bias_vector l) <= snd (dense_dims (l_transB l) rows cols))%nat).
