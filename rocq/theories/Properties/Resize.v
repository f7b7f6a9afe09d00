(** Resize in nearest mode (Spec/Resize), and the constants of a model (Spec/Constants). *)
From Coq Require Import List Arith Bool ZArith QArith String Lia.
From Verif Require Import Spec.Tensors Spec.Resize Spec.Constants Model.Resize Model.Constants Proofs.ResizeProps Proofs.Constants.
Import ListNotations.
Local Open Scope nat_scope.
Local Open Scope string_scope.

(** ** C113: Resize in nearest mode reads, at every output position, the input position ONNX
    defines for the coordinate mode and the rounding mode. *)
(** Given the sizes. *)
Theorem C113_resize_sizes_partial {T} cm nm sizes (x : tensor T) : well_formed x -> Forall (lt 0) (dims x) ->
  ((exists y, resize_nearest cm nm (Sizes sizes) x = Some y) <-> List.length sizes = List.length (dims x) /\ Forall (fun z => (0 <= z)%Z) sizes) /\
  forall y, resize_nearest cm nm (Sizes sizes) x = Some y -> well_formed y /\ map Z.of_nat (dims y) = sizes /\
    resized cm nm (scales_of (dims x) (dims y)) x y.
Proof. exact (resize_sizes_holds cm nm sizes x). Qed.
Print Assumptions C113_resize_sizes_partial.
(** False given scales: 2 elements scaled by 1.4. *)
Theorem C113_resize_scales_refuted : ~ (forall T cm nm sc (x : tensor T), well_formed x -> Forall (lt 0) (dims x) ->
  List.length sc = List.length (dims x) -> Forall (fun q => (0 < q)%Q) sc ->
  exists y, resize_nearest cm nm (Scales sc) x = Some y /\ dims y = scaled_dims (dims x) sc /\ resized cm nm sc x y).
Proof. exact resize_scales_fails. Qed.
Print Assumptions C113_resize_scales_refuted.
(** Given scales: the sizes are those of ONNX, the elements those for the ratio of the sizes,
    which is the scale if the scale makes the sizes whole. *)
Theorem C113_resize_scales_partial {T} cm nm sc (x : tensor T) : well_formed x -> Forall (lt 0) (dims x) ->
  ((exists y, resize_nearest cm nm (Scales sc) x = Some y) <-> List.length sc = List.length (dims x) /\ Forall (fun q => (0 < q)%Q) sc) /\
  forall y, resize_nearest cm nm (Scales sc) x = Some y -> well_formed y /\ dims y = scaled_dims (dims x) sc /\
    resized cm nm (scales_of (dims x) (dims y)) x y /\
    (whole_sizes (dims x) sc -> resized cm nm sc x y).
Proof. exact (resize_scales_holds cm nm sc x). Qed.
Print Assumptions C113_resize_scales_partial.
Example resize_example : let x := {| dims := [1; 3]; flat := [10; 20; 30] |} in
  resize_nearest HalfPixel RoundPreferFloor (Sizes [1; 5]%Z) x = Some {| dims := [1; 5]; flat := [10; 10; 20; 30; 30] |} /\
  resize_nearest AlignCorners RoundPreferCeil (Scales [1; 2]%Q) x = Some {| dims := [1; 6]; flat := [10; 10; 20; 20; 30; 30] |} /\
  whole_sizes (dims x) [1; 2]%Q.
Proof. split; [vm_compute; reflexivity|]. split; [vm_compute; reflexivity|]. repeat constructor. Qed.

(** ** C115: the constants of a model enter the circuit at the scale of their operand. *)
(** False: the constant of an Add (an operand of scale alpha) is not scaled; 0.5 becomes 0. *)
Theorem C115_add_constants_refuted : ~ (forall alpha before l after name v,
  (forall l', In l' before -> lookup name (weights l') = None) ->
  op_type l = Op "Add" -> In name (inputs l) -> lookup name (weights l) = Some {| float_data := v; int_data := [] |} ->
  exists c, circuit_constant alpha (before ++ l :: after) name = Some c /\ at_scale alpha 1 v c).
Proof. exact add_constants_fail. Qed.
Print Assumptions C115_add_constants_refuted.
(** False also for the operators with a scale plan: an earlier layer may use the constant. *)
Theorem C115_planned_constants_refuted : ~ (forall alpha layers l name pos k v,
  In l layers ->
  In (pos, k) (get_scale_plan (op_type l)) /\ nth_error (inputs l) pos = Some name /\
  (forall pos' k', In (pos', k') (get_scale_plan (op_type l)) -> nth_error (inputs l) pos' = Some name -> pos' = pos) ->
  lookup name (weights l) = Some {| float_data := v; int_data := [] |} ->
  exists c, circuit_constant alpha layers name = Some c /\ at_scale alpha k v c).
Proof. exact planned_constants_fail. Qed.
Print Assumptions C115_planned_constants_refuted.
(** Weights (power 1) and biases (power 2) of the operators with a plan, not used by an earlier
    layer, are scaled and rounded to the nearest. *)
Theorem C115_planned_constants_partial alpha before l after name pos k v :
  (forall l', In l' before -> lookup name (weights l') = None) ->
  In (pos, k) (get_scale_plan (op_type l)) /\ nth_error (inputs l) pos = Some name /\
  (forall pos' k', In (pos', k') (get_scale_plan (op_type l)) -> nth_error (inputs l) pos' = Some name -> pos' = pos) ->
  lookup name (weights l) = Some {| float_data := v; int_data := [] |} ->
  exists c, circuit_constant alpha (before ++ l :: after) name = Some c /\ at_scale alpha k v c.
Proof. exact (constant_planned alpha before l after name pos k v). Qed.
Print Assumptions C115_planned_constants_partial.
(** Every operand outside the plans enters as its integer part. *)
Theorem C115_other_constants_partial alpha before l after name v :
  (forall l', In l' before -> lookup name (weights l') = None) ->
  (forall pos k, In (pos, k) (get_scale_plan (op_type l)) -> nth_error (inputs l) pos <> Some name) ->
  lookup name (weights l) = Some {| float_data := v; int_data := [] |} ->
  exists c, circuit_constant alpha (before ++ l :: after) name = Some c /\ Forall2 int_part v c.
Proof. exact (constant_unplanned alpha before l after name v). Qed.
Print Assumptions C115_other_constants_partial.
Example constants_example : let w := [("w", {| float_data := [1 # 2; -3 # 4]%Q; int_data := [] |})] in
  let g := [{| op_type := Conv; inputs := ["x"; "w"]; weights := w |}] in
  In (1, 1) (get_scale_plan Conv) /\ In (2, 2) (get_scale_plan Conv) /\
  circuit_constant 8 g "w" = Some [4; -6]%Z /\
  circuit_constant 8 [{| op_type := Op "Add"; inputs := ["x"; "w"]; weights := w |}] "w" = Some [0; 0]%Z.
Proof. cbn [get_scale_plan In]. split; [auto|]. split; [auto|]. split; vm_compute; reflexivity. Qed.
