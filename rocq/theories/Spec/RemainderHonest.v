(** Honest provers of the Remainder backend: the tensors the witness generator
    computes, and the models for which its proofs are accepted. *)
From Coq Require Import ZArith List Bool String.
From Verif Require Import Base.Array Spec.Numbers Spec.Remainder Spec.RemainderCircuit Model.Remainder Model.RemainderWitness.
Import ListNotations.
Local Open Scope Z_scope.

(** The witness generator's state after the first [k] layers, and the tensors it
    has computed by then. *)
Definition witness_after (m : model) (input : list Z) (k : nat) : option wstate :=
  let* x := aget (m_inputs m) 0 in
  let padded := pad_to_size input (pow2_for (List.length input)) in
  for_each (firstn k (m_layers m)) (witness_layer m) (mkW [(SInput x, padded)] [(x, padded)] (input_layouts m) []).
Definition computed (m : model) (input : list Z) (k : nat) (name : string) : option (list Z) :=
  let* st := witness_after m input k in hget (w_tensors st) name.

(** An operand of layer [k]: a computed tensor, or a constant of the layer. *)
Definition operand (m : model) (input : list Z) (k : nat) (l : layer) (name : string) : option (list Z) :=
  match computed m input k name with
  | Some v => Some v
  | None => match hget (l_weights l) name with Some w => Some (snd w) | None => None end
  end.

(** Operations that read the layout of an image. *)
Definition image_op (o : op) : Prop := match o with Conv | MaxPool | BatchNorm => True | _ => False end.

(** No such operation comes after a reshape. *)
Definition images_first (m : model) : Prop :=
  forall before l after l', m_layers m = before ++ l :: after -> l_op l = Reshape -> In l' after -> ~ image_op (l_op l').

(** Every dense layer is given a vector of the size it expects, padded to a power
    of two. *)
Definition dense_sizes_agree (m : model) (input : list Z) : Prop :=
  forall k l x wn rows cols rest data xs, nth_error (m_layers m) k = Some l -> l_op l = Gemm ->
    nth_error (l_inputs l) 0 = Some x -> nth_error (l_inputs l) 1 = Some wn -> hget (l_weights l) wn = Some (rows :: cols :: rest, data) ->
    computed m input k x = Some xs -> List.length xs = pow2_for (fst (dense_dims (l_transB l) rows cols)).

(** The operands of every addition and subtraction have the same size, up to
    padding, and no constant operand is named [result]. *)
Definition operand_sizes_agree (m : model) (input : list Z) : Prop :=
  forall k l, nth_error (m_layers m) k = Some l -> l_op l = Add \/ l_op l = Sub ->
    hget (l_weights l) "result" = None /\
    forall a c va vc, nth_error (l_inputs l) 0 = Some a -> nth_error (l_inputs l) 1 = Some c ->
      operand m input k l a = Some va -> operand m input k l c = Some vc ->
      pow2_for (List.length va) = pow2_for (List.length vc).

(** The models and inputs the claim is proved for. *)
Definition provable (m : model) (input : list Z) : Prop :=
  NoDup (map l_name (m_layers m)) /\ (0 < m_alpha m /\ i64 (m_alpha m)) /\ (forall v, In v input -> i64 v) /\
  images_first m /\ dense_sizes_agree m input /\ operand_sizes_agree m input.

(** [pf] is what the prover produces for this model and input. *)
Definition honest_proof (m : model) (input : list Z) (pf : proof) : Prop :=
  exists w, compute_witness m input = Some w /\ generate_proof m w = Some pf.

(** The values of a pooling window. *)
Definition window (lay : layout) (xs : list Z) (ph pw c h w : nat) : list Z :=
  flat_map (fun i => map (fun j => entry xs (position lay c (h + i) (w + j))) (seq 0 pw)) (seq 0 ph).

(** A convolution by its definition: the feature maps one after another, each row
    by row, as a flattening in ONNX arranges them. *)
Definition feature_maps (alpha : Z) (l : layer) (lay : layout) (xs kernel : list Z) (cout cin kh kw : nat) : list Z :=
  let oh := windows (pad_begin l 0 + height lay + pad_end l 0) kh (stride l 0) in
  let ow := windows (pad_begin l 1 + width lay + pad_end l 1) kw (stride l 1) in
  flat_map (fun co => flat_map (fun i => map (fun j =>
    (conv_sum lay xs kernel cin kh kw (pad_begin l 0) (pad_begin l 1) co (i * stride l 0) (j * stride l 1) + entry (bias_vector l) co) / alpha)
    (seq 0 ow)) (seq 0 oh)) (seq 0 cout).
