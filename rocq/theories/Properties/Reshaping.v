(** Reshape, Flatten, Squeeze, Unsqueeze, Range, Shape and ConstantOfShape.  Theorems only, with
    cases that meet the hypotheses. *)
From Coq Require Import List Arith Bool ZArith Lia QArith.
From Verif Require Import Base.Machine Spec.Numbers Spec.Shapes Spec.Tensors Spec.Selection Spec.Reshaping Model.Reshaping Proofs.Reshaping Proofs.Reshaping2.
From Verif Require Model.Constants.
Import ListNotations.
Local Open Scope nat_scope.

(** ** C141 *)
(** Refuted: a target with a 0, which ONNX and the shape inference take for the input's
    dimension, is refused by the layer. *)
Theorem C141_zero_refuted : exists (x : tensor Z) target out, well_formed x /\ Forall (lt 0) (dims x) /\
  reshapes_to false (dims x) target out /\ infer_reshape false (dims x) target = Some out /\ reshape target x = None.
Proof.
  exists {| dims := [2; 3]; flat := [1; 2; 3; 4; 5; 6]%Z |}, [0; -1]%Z, [2; 3]. split; [reflexivity|]. split; [repeat constructor|].
  split; [exact (infer_reshape_sound false [2; 3] [0; -1]%Z [2; 3] eq_refl)|]. split; reflexivity.
Qed.
Print Assumptions C141_zero_refuted.
(** Without a 0 in the target, the layer gives exactly the tensor with the same elements in
    row-major order and the ONNX shape; the inference announces only ONNX shapes, and announces
    one whenever there is one. *)
Theorem C141_reshape_partial {T} allowzero target (x y : tensor T) :
  well_formed x -> (zprod (filter (fun d => negb (d =? -1)) target) < U64)%Z -> ~ In 0%Z target ->
  reshape target x = Some y <-> reshapes_to allowzero (dims x) target (dims y) /\ flat y = flat x.
Proof. exact (reshape_exact allowzero target x y). Qed.
Print Assumptions C141_reshape_partial.
Theorem C141_announced_sound allowzero input target out : infer_reshape allowzero input target = Some out -> reshapes_to allowzero input target out.
Proof. exact (infer_reshape_sound allowzero input target out). Qed.
Print Assumptions C141_announced_sound.
Theorem C141_announced_complete allowzero input target out : Forall (lt 0) input ->
  reshapes_to allowzero input target out -> infer_reshape allowzero input target = Some out.
Proof. exact (infer_reshape_complete allowzero input target out). Qed.
Print Assumptions C141_announced_complete.
Theorem C141_zero_rejected_partial {T} target (x : tensor T) : In 0%Z target -> reshape target x = None.
Proof. exact (reshape_zero target x). Qed.
Print Assumptions C141_zero_rejected_partial.
Example C141_applies : (zprod (filter (fun d => negb (d =? -1)) [3; -1]) < U64)%Z /\ ~ In 0%Z [3; -1]%Z /\
  reshape [3; -1]%Z {| dims := [2; 3]; flat := [1; 2; 3; 4; 5; 6] |} = Some {| dims := [3; 2]; flat := [1; 2; 3; 4; 5; 6] |} /\
  infer_reshape false [2; 3] [3; -1]%Z = Some [3; 2] /\ infer_reshape false [2; 3] [0; -1; 1]%Z = Some [2; 3; 1] /\
  infer_reshape true [2; 3] [0; -1]%Z = None /\ infer_reshape false [2; 3] [4; -1]%Z = None.
Proof. split; [reflexivity|]. split; [intros [H|[H|[]]]; discriminate|]. repeat split. Qed.

(** ** C142 *)
(** Refuted: an axis below zero, which ONNX and the shape inference count from the end, is
    refused by the layer. *)
Theorem C142_negative_axis_refuted : exists (x : tensor Z) raw, well_formed x /\
  infer_flatten (dims x) raw = Some [2; 3] /\ flattened (Z.to_nat (from_end (length (dims x)) raw)) x x /\ flatten raw x = None.
Proof.
  exists {| dims := [2; 3]; flat := [1; 2; 3; 4; 5; 6]%Z |}, (-1)%Z. split; [reflexivity|]. split; [reflexivity|]. split; [|reflexivity].
  exact (flatten_meaning 1 {| dims := [2; 3]; flat := [1; 2; 3; 4; 5; 6]%Z |} ltac:(cbn; lia)).
Qed.
Print Assumptions C142_negative_axis_refuted.
(** Axes from 0 to the rank are flattened, exactly these, with the announced shape. *)
Theorem C142_flatten_partial {T} raw (x y : tensor T) : well_formed x -> flatten raw x = Some y ->
  (0 <= raw <= Z.of_nat (length (dims x)))%Z /\ flattened (Z.to_nat raw) x y /\ flat y = flat x /\ infer_flatten (dims x) raw = Some (dims y).
Proof.
  intros W E. split; [exact (proj1 (proj1 (flatten_iff raw x y W) E))|]. destruct (proj1 (flatten_iff raw x y W) E) as (B & Y).
  split; [rewrite Y; apply flatten_meaning; lia|]. split; [now rewrite Y|]. exact (flatten_announced raw x y W E).
Qed.
Print Assumptions C142_flatten_partial.
Theorem C142_flatten_complete_partial {T} raw (x : tensor T) : well_formed x -> (0 <= raw <= Z.of_nat (length (dims x)))%Z ->
  exists y, flatten raw x = Some y.
Proof. intros W B. eexists. exact (proj2 (flatten_iff raw x _ W) (conj B eq_refl)). Qed.
Print Assumptions C142_flatten_complete_partial.
(** The inference accepts exactly the axes of ONNX, and announces the two products. *)
Theorem C142_announced_exact_partial s raw out : infer_flatten s raw = Some out <->
  (- Z.of_nat (length s) <= raw <= Z.of_nat (length s))%Z /\
  let axis := Z.to_nat (from_end (length s) raw) in out = [prod (firstn axis s); prod (skipn axis s)].
Proof. exact (infer_flatten_iff s raw out). Qed.
Print Assumptions C142_announced_exact_partial.
Example C142_applies : flatten 1 {| dims := [2; 1; 2]; flat := [1; 2; 3; 4] |} = Some {| dims := [2; 2]; flat := [1; 2; 3; 4] |} /\
  flatten 3 {| dims := [2; 1; 2]; flat := [1; 2; 3; 4] |} = Some {| dims := [4; 1]; flat := [1; 2; 3; 4] |} /\
  flatten 4 {| dims := [2; 1; 2]; flat := [1; 2; 3; 4] |} = None.
Proof. repeat split. Qed.

(** ** C143 *)
(** Refuted: an initializer that lists no axes removes no axis, and that shape is announced, but
    the layer does not see it and removes all axes of size 1. *)
Theorem C143_no_axes_refuted : exists x : tensor Z, well_formed x /\
  infer_squeeze None (Initializer []) (dims x) = Some (dims x) /\
  exists y, squeeze None (Initializer []) x = Some y /\ dims y <> dims x.
Proof. exact squeeze_empty_initializer. Qed.
Print Assumptions C143_no_axes_refuted.
(** In all other cases the output has the announced shape; listed axes are removed when they are
    valid, distinct and of size 1, and refused otherwise; without a list all axes of size 1 are
    removed. *)
Theorem C143_announced_partial {T} attr i (x : tensor T) s : well_formed x ->
  (forall l, layer_axes attr i = Some l -> machine l (length (dims x))) -> attr <> None \/ i <> Initializer [] ->
  infer_squeeze attr i (dims x) = Some s -> exists y, squeeze attr i x = Some y /\ dims y = s /\ flat y = flat x.
Proof. exact (squeeze_announced attr i x s). Qed.
Print Assumptions C143_announced_partial.
Theorem C143_listed_partial {T} attr i axes (x y : tensor T) : machine axes (length (dims x)) -> layer_axes attr i = Some axes ->
  squeeze attr i x = Some y ->
  good_axes axes (length (dims x)) /\ squeezed (positions axes (length (dims x))) x y /\ flat y = flat x /\ well_formed y.
Proof. exact (squeeze_listed attr i axes x y). Qed.
Print Assumptions C143_listed_partial.
Theorem C143_listed_complete_partial {T} attr i axes (x : tensor T) : well_formed x -> machine axes (length (dims x)) -> layer_axes attr i = Some axes ->
  good_axes axes (length (dims x)) -> Forall (fun k => nth_error (dims x) k = Some 1) (positions axes (length (dims x))) ->
  exists y, squeeze attr i x = Some y.
Proof. intros W M L G F. eexists. exact (squeeze_defined attr i axes x W M L G F). Qed.
Print Assumptions C143_listed_complete_partial.
Theorem C143_all_partial {T} (x : tensor T) : well_formed x -> exists y, squeeze None Omitted x = Some y /\ squeezed (unit_axes (dims x)) x y /\ flat y = flat x.
Proof. intros W. exact (squeeze_all None Omitted x W eq_refl). Qed.
Print Assumptions C143_all_partial.
(** The axes seen by the layer are those of the attribute, then those of the second input. *)
Theorem C143_axes_partial v l : layer_axes (Some v) Omitted = Some v /\ layer_axes None (ConstantNode v) = Some v /\
  (v <> [] -> layer_axes None (Initializer v) = Some v) /\ layer_axes (Some v) (Initializer l) = Some v.
Proof. split; [reflexivity|]. split; [reflexivity|]. split; [destruct v; [congruence|reflexivity]|reflexivity]. Qed.
Print Assumptions C143_axes_partial.
Example C143_applies :
  squeeze (Some [-1; 0]%Z) Omitted {| dims := [1; 2; 1]; flat := [5; 6] |} = Some {| dims := [2]; flat := [5; 6] |} /\
  squeeze None Omitted {| dims := [1; 2; 1]; flat := [5; 6] |} = Some {| dims := [2]; flat := [5; 6] |} /\
  squeeze (Some [1]%Z) Omitted {| dims := [1; 2; 1]; flat := [5; 6] |} = None /\
  squeeze (Some [0; -3]%Z) Omitted {| dims := [1; 2; 1]; flat := [5; 6] |} = None /\
  machine [-1; 0]%Z 3 /\ good_axes [-1; 0]%Z 3 /\ without [2; 0] 0 [7; 8; 9] = [8].
Proof.
  repeat (split; [reflexivity|]). split; [split; [reflexivity|repeat constructor; unfold i64; lia]|]. split; [|reflexivity].
  split; [repeat constructor; unfold valid_axis; lia|]. repeat constructor; cbn; lia.
Qed.

(** ** C144 *)
(** With the axes listed, the output has the rank of the input and of the list together; without
    these axes, all of size 1, it is the input; it has the announced shape; and exactly the
    valid and distinct axes are accepted. *)
Theorem C144_unsqueeze {T} attr i axes (x : tensor T) : let r := length (dims x) + length axes in
  well_formed x -> machine axes r -> layer_axes attr i = Some axes -> good_axes axes r ->
  exists y, unsqueeze attr i x = Some y /\ infer_unsqueeze attr i (dims x) = Some (dims y) /\ length (dims y) = r /\
    flat y = flat x /\ squeezed (positions axes r) y x.
Proof. exact (unsqueeze_good attr i axes x). Qed.
Print Assumptions C144_unsqueeze.
Theorem C144_unsqueeze_rejects {T} attr i axes (x : tensor T) : let r := length (dims x) + length axes in
  machine axes r -> layer_axes attr i = Some axes -> ~ good_axes axes r -> unsqueeze attr i x = None.
Proof. exact (unsqueeze_bad attr i axes x). Qed.
Print Assumptions C144_unsqueeze_rejects.
Example C144_applies :
  unsqueeze (Some [0; -1]%Z) Omitted {| dims := [2; 3]; flat := [1; 2; 3; 4; 5; 6] |} = Some {| dims := [1; 2; 3; 1]; flat := [1; 2; 3; 4; 5; 6] |} /\
  unsqueeze (Some [4]%Z) Omitted {| dims := [2]; flat := [1; 2] |} = None /\
  unsqueeze (Some [0; 0]%Z) Omitted {| dims := [2]; flat := [1; 2] |} = None.
Proof. repeat split. Qed.

(** ** C145 *)
(** Refuted: the circuit holds the integer part of the limit, so 0, 5/2, 1 gives two numbers
    where there are three and three are announced. *)
Theorem C145_fraction_refuted p : exists limit l,
  load_scalar {| Constants.float_data := [5 # 2]; Constants.int_data := [] |} = Some limit /\
  range_layer p 0 limit 1 = Some l /\ dims l = [2] /\ infer_range 0 (5 # 2) 1 = Some [3].
Proof. exact (range_fraction p). Qed.
Print Assumptions C145_fraction_refuted.
(** Integers give exactly the progression, with the announced length; a step of 0 is refused. *)
Theorem C145_range_partial p start limit delta : (2 ^ 63 <= p)%Z -> i64 start -> i64 limit -> delta <> 0%Z -> i64 (limit - start) ->
  exists l, range_layer p start limit delta = Some (encoded p {| dims := [length l]; flat := l |}) /\ progression start limit delta l.
Proof. exact (range_layer_ok p start limit delta). Qed.
Print Assumptions C145_range_partial.
Theorem C145_announced_partial start limit delta l : delta <> 0%Z -> progression start limit delta l ->
  infer_range (inject_Z start) (inject_Z limit) (inject_Z delta) = Some [length l].
Proof. exact (range_announced start limit delta l). Qed.
Print Assumptions C145_announced_partial.
Theorem C145_zero_rejected_partial p start limit : range_layer p start limit 0 = None.
Proof. exact (range_zero_delta p start limit). Qed.
Print Assumptions C145_zero_rejected_partial.
Example C145_applies : range_build 5 0 (-2) = Some [5; 3; 1]%Z /\ range_build 3 3 1 = Some [] /\ i64 5 /\ i64 (0 - 5) /\
  infer_range 5 0 (-2) = Some [3].
Proof. repeat split; unfold i64; try lia. Qed.

(** ** C146 *)
(** Shape gives the dimensions between its attributes, as integers, with the announced length. *)
Theorem C146_shape p start_attr end_attr s :
  let l := dims_between s (match start_attr with Some v => v | None => 0%Z end) (match end_attr with Some v => v | None => Z.of_nat (length s) end) in
  shape_layer p start_attr end_attr s = Some (encoded p {| dims := [length l]; flat := map Z.of_nat l |}) /\
  infer_shape_op start_attr end_attr s = [length l].
Proof. exact (shape_layer_ok p start_attr end_attr s). Qed.
Print Assumptions C146_shape.
Example C146_applies : shape_build (Some (-3)%Z) (Some (-1)%Z) [2; 3; 4; 5] = [3; 4] /\ dims_between [2; 3; 4; 5] (-3) (-1) = [3; 4] /\
  shape_build (Some 3%Z) (Some 1%Z) [2; 3; 4; 5] = [] /\ dims_between [2; 3; 4; 5] (-9) 9 = [2; 3; 4; 5].
Proof. repeat split. Qed.

(** ** C147 *)
(** Refuted: only the integer part of the fill value is kept, so 5/2 and 2 give the same tensor. *)
Theorem C147_fraction_refuted p shape :
  constant_of_shape p shape (Some {| Constants.float_data := [5 # 2]; Constants.int_data := [] |}) =
  constant_of_shape p shape (Some {| Constants.float_data := [2%Q]; Constants.int_data := [] |}).
Proof. exact (fill_fraction p shape). Qed.
Print Assumptions C147_fraction_refuted.
(** An integer fill value, or 0 if there is none, is put everywhere; negative dimensions are refused. *)
Theorem C147_filled_partial p shape v rest : Forall (fun d => 0 <= d)%Z shape ->
  exists y, constant_of_shape p shape (Some {| Constants.float_data := []; Constants.int_data := v :: rest |}) = Some (encoded p y) /\
    well_formed y /\ filled v (map Z.to_nat shape) y.
Proof. exact (constant_of_shape_ok p shape (Some {| Constants.float_data := []; Constants.int_data := v :: rest |})). Qed.
Print Assumptions C147_filled_partial.
Theorem C147_default_partial p shape : Forall (fun d => 0 <= d)%Z shape ->
  exists y, constant_of_shape p shape None = Some (encoded p y) /\ well_formed y /\ filled 0%Z (map Z.to_nat shape) y.
Proof. exact (constant_of_shape_ok p shape None). Qed.
Print Assumptions C147_default_partial.
Theorem C147_negative_rejected_partial p shape value : ~ Forall (fun d => 0 <= d)%Z shape -> constant_of_shape p shape value = None.
Proof. exact (constant_of_shape_negative p shape value). Qed.
Print Assumptions C147_negative_rejected_partial.
Example C147_applies : constant_of_shape 97 [2; 2]%Z (Some {| Constants.float_data := []; Constants.int_data := [-1]%Z |}) =
  Some {| dims := [2; 2]; flat := [96; 96; 96; 96]%Z |} /\ Forall (fun d => 0 <= d)%Z [2; 2]%Z.
Proof. split; [reflexivity|repeat constructor; lia]. Qed.
