(** C48-C51, C66, C67: shapes, indexes, axes and input slicing. *)
From Coq Require Import List Arith Bool ZArith String Sorted Lia.
From Verif Require Import Base.Array Base.Machine Spec.Shapes Model.Shapes.
From Verif Require Proofs.Shapes Proofs.Shapes2.
Import ListNotations.
Local Open Scope list_scope.

(** ** C48 *)
(** For shapes without zero dimensions the common shape is found exactly when there is one. *)
Theorem C48_broadcast_shape_partial a b r : Forall (lt 0) a -> Forall (lt 0) b ->
  (determine_broadcast_shape a b = Some r <-> broadcasts_to a b r).
Proof. exact (Shapes.broadcast_shape_ok a b r). Qed.
Print Assumptions C48_broadcast_shape_partial.

(** With a zero dimension against 1 the result is 1, not 0. *)
Theorem C48_zero_dimension_refuted :
  ~ (forall a b r, determine_broadcast_shape a b = Some r <-> broadcasts_to a b r).
Proof.
  exact (fun H => match proj1 (H [0] [1] [1]) eq_refl with
    conj _ F => match F 0 (le_n 1) with
      | or_introl (conj E _) => ltac:(discriminate E)
      | or_intror (or_introl (conj E _)) => ltac:(discriminate E)
      | or_intror (or_intror (conj _ E)) => ltac:(discriminate E) end end).
Qed.
Print Assumptions C48_zero_dimension_refuted.

Theorem C48_commutative a b : determine_broadcast_shape a b = determine_broadcast_shape b a.
Proof. exact (Shapes.broadcast_shape_comm a b). Qed.
Print Assumptions C48_commutative.

Theorem C48_idempotent a : determine_broadcast_shape a a = Some a.
Proof. exact (Shapes.broadcast_shape_idem a). Qed.
Print Assumptions C48_idempotent.

(** Both operands expand to the common shape, ... *)
Theorem C48_operands_expand a b r : Forall (lt 0) a -> Forall (lt 0) b -> determine_broadcast_shape a b = Some r ->
  expands_to a r /\ expands_to b r.
Proof. exact (Shapes.broadcast_shape_expands a b r). Qed.
Print Assumptions C48_operands_expand.

(** ... and the element read for output coordinates [oc] is the one ONNX prescribes;
    it lies inside the operand. *)
Theorem C48_element_read oc out shape : in_range oc out -> expands_to shape out ->
  in_range (read_coords oc shape) shape /\
  broadcast_index oc shape (List.length out) = Some (row_major (read_coords oc shape) shape) /\
  row_major (read_coords oc shape) shape < prod shape.
Proof. exact (Shapes.broadcast_index_ok oc out shape). Qed.
Print Assumptions C48_element_read.

Example C48_applies :
  determine_broadcast_shape [3; 1; 2] [4; 1] = Some [3; 4; 2] /\ determine_broadcast_shape [3; 2] [4; 2] = None /\
  determine_broadcast_shape [] [5] = Some [5] /\
  broadcast_index [2; 3; 1] [4; 1] 3 = Some 3 /\ read_coords [2; 3; 1] [4; 1] = [3; 0].
Proof. repeat split; reflexivity. Qed.

(** ** C49 *)
Theorem C49_ravel_is_row_major coords shape : List.length coords = List.length shape ->
  ravel coords shape = Some (row_major coords shape).
Proof. exact (Shapes.ravel_row_major coords shape). Qed.
Print Assumptions C49_ravel_is_row_major.

Theorem C49_unravel_ravel coords shape : in_range coords shape ->
  exists flat, ravel coords shape = Some flat /\ flat < prod shape /\ unravel flat shape = Some coords.
Proof. exact (Shapes.ravel_unravel coords shape). Qed.
Print Assumptions C49_unravel_ravel.

Theorem C49_ravel_unravel flat shape : flat < prod shape ->
  exists coords, unravel flat shape = Some coords /\ in_range coords shape /\ ravel coords shape = Some flat.
Proof. exact (Shapes.unravel_ravel flat shape). Qed.
Print Assumptions C49_ravel_unravel.

Example C49_applies :
  unravel 17 [3; 4; 2] = Some [2; 0; 1] /\ ravel [2; 0; 1] [3; 4; 2] = Some 17 /\ in_range [2; 0; 1] [3; 4; 2] /\ 17 < prod [3; 4; 2].
Proof. repeat split; try reflexivity; repeat constructor. Qed.

(** ** C50 *)
(** Axes are accepted exactly when they are in range and distinct; the result is the
    strictly increasing list of their positions (there is only one). *)
Theorem C50_normalize_axes axes rank out : (0 <= rank < 2 ^ 63)%Z -> Forall (fun a => - 2 ^ 63 <= a < 2 ^ 63)%Z axes ->
  (normalize_axes axes rank = Some out <->
   Forall (valid_axis rank) axes /\ NoDup (map (axis_position rank) axes) /\
   StronglySorted lt out /\ (forall i, In i out <-> In i (map (axis_position rank) axes))).
Proof. exact (Shapes2.normalize_axes_ok axes rank out). Qed.
Print Assumptions C50_normalize_axes.

Example C50_applies :
  normalize_axes [-1; 0; -3]%Z 5 = Some [0; 2; 4] /\ normalize_axes [1; -4]%Z 5 = None /\ normalize_axes [5]%Z 5 = None /\
  normalize_axes [-6]%Z 5 = None.
Proof. repeat split; reflexivity. Qed.

(** ** C51 *)
(** The slices returned have the declared names and shapes in order, each has as many
    elements as its shape, and together they are the input. *)
Theorem C51_get_inputs {T} (v : list T) inputs r : get_inputs v inputs = Some r <->
  map (fun e => (fst e, fst (snd e))) r = inputs /\
  Forall (fun e => List.length (snd (snd e)) = prod (fst (snd e))) r /\
  List.concat (map (fun e => snd (snd e)) r) = v.
Proof. exact (Shapes2.get_inputs_ok v inputs r). Qed.
Print Assumptions C51_get_inputs.

Theorem C51_total_size {T} (v : list T) inputs :
  (exists r, get_inputs v inputs = Some r) <-> List.length v = list_sum (map (fun i => prod (snd i)) inputs).
Proof. exact (Shapes2.get_inputs_size v inputs). Qed.
Print Assumptions C51_total_size.

(** With distinct names every input is found under its name. *)
Theorem C51_lookup {T} (v : list T) before name shape after : NoDup (map fst (before ++ (name, shape) :: after)) ->
  forall r, get_inputs v (before ++ (name, shape) :: after) = Some r ->
  map_get r name = Some (shape, firstn (prod shape) (skipn (list_sum (map (fun i => prod (snd i)) before)) v)).
Proof. exact (Shapes2.get_inputs_get v before name shape after). Qed.
Print Assumptions C51_lookup.

Example C51_applies :
  let ins := [("x", [2; 2]); ("y", [1]); ("z", [3])]%string in
  get_inputs [1; 2; 3; 4; 5; 6; 7; 8] ins =
    Some [("x", ([2; 2], [1; 2; 3; 4])); ("y", ([1], [5])); ("z", ([3], [6; 7; 8]))]%string /\
  get_inputs [1; 2; 3; 4; 5; 6; 7] ins = None /\ NoDup (map fst ins).
Proof. repeat split; try reflexivity. repeat constructor; cbn; intuition discriminate. Qed.

(** ** C66 *)
(** A reshape target is accepted exactly when its single -1 can be filled in so that the
    number of elements stays the same. *)
Theorem C66_reshape size shape out : (0 <= size)%Z ->
  (zprod (filter (fun d => negb (d =? -1)%Z) shape) < U64)%Z ->
  (infer_reshape_shape size shape = Some out <-> resolves size shape out).
Proof. exact (Shapes2.reshape_ok size shape out). Qed.
Print Assumptions C66_reshape.

Theorem C66_flatten shape axis out : onnx_flatten shape axis = Some out ->
  axis <= List.length shape /\ List.length out = 2 /\ prod out = prod shape.
Proof. exact (Shapes2.flatten_ok shape axis out). Qed.
Print Assumptions C66_flatten.

Example C66_applies :
  infer_reshape_shape 24 [2; -1; 3]%Z = Some [2; 4; 3]%Z /\ infer_reshape_shape 24 [5; -1]%Z = None /\
  infer_reshape_shape 24 [-1; -1]%Z = None /\ infer_reshape_shape 24 [4; 5]%Z = None /\
  onnx_flatten [2; 3; 4] 1 = Some [2; 12] /\ onnx_flatten [2; 3; 4] 4 = None.
Proof. repeat split; reflexivity. Qed.

(** ** C67 *)
(** For every output element, the flat positions read are exactly those of the input
    elements that contribute to it, each once, and no index is out of bounds. *)
Theorem C67_reduction_inputs axes shape : NoDup axes -> Forall (fun a => a < List.length shape) axes ->
  forall oc keep, in_range oc (reduced_shape axes keep shape) ->
  exists l, collect_reduction_inputs oc axes keep shape (List.length shape) = Some l /\ NoDup l /\
    forall x, In x l <-> exists ic, in_range ic shape /\ reduced axes keep ic = oc /\ x = row_major ic shape.
Proof. exact (Shapes2.collect_ok axes shape). Qed.
Print Assumptions C67_reduction_inputs.

Example C67_applies :
  collect_reduction_inputs [1] [0; 2] false [2; 3; 2] 3 = Some [2; 3; 8; 9] /\
  collect_reduction_inputs [0; 1; 0] [0; 2] true [2; 3; 2] 3 = Some [2; 3; 8; 9] /\
  reduced_shape [0; 2] false [2; 3; 2] = [3] /\ reduced_shape [0; 2] true [2; 3; 2] = [1; 3; 1].
Proof. repeat split; reflexivity. Qed.
