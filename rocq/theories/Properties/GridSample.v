(** GridSample.  Theorems only, with a case that meets the hypotheses. *)
From Coq Require Import List Arith Bool ZArith QArith Znumtheory Lia.
From Verif Require Import Spec.Numbers Spec.Shapes Spec.Tensors Spec.HonestProver Spec.Selection Spec.Resize Spec.MatMul Spec.GridSample
  Model.Builder Model.Gadgets Model.GridSample Model.GridSampleCircuit Model.GridSampleHint Base.Pocklington
  Proofs.RangeCheck Proofs.GridSampleCircuit Proofs.GridSample Proofs.GridSampleLayer Proofs.GridSampleHonest Proofs.GridSampleProps.
Import ListNotations.
Local Open Scope Z_scope.

(** ** C149: GridSample with a computed grid.  Refuted: whatever the image, the grid, the padding
    and the configuration, every output of values of n_bits bits is accepted. *)
Theorem C149_computed_grid_refuted p c F k nb pad align n ch h w ho wo x g outs :
  prime p -> (0 < c)%nat -> width_ok c k -> width_ok c nb -> 2 ^ Z.of_nat (rounded c k) <= p -> 2 ^ Z.of_nat (rounded c nb) <= p ->
  grid_shapes n ch h w ho wo x g -> length outs = prod [n; ch; ho; wo] -> Forall (fun v => 0 <= v < 2 ^ Z.of_nat nb) outs ->
  accepts p (table_rows c F) (gridsample_dynamic p c k nb pad align [n; ch; ho; wo] x g) {| dims := [n; ch; ho; wo]; flat := outs |}.
Proof. exact (fun Hp Hc Hk Hn => dynamic_layer_any p Hp c Hc F k nb Hk Hn pad align n ch h w ho wo x g outs). Qed.
Print Assumptions C149_computed_grid_refuted.
(** The output has the announced shape, and its values have n_bits bits if that is a multiple of
    the chunk width. *)
Theorem C149_range_partial p c F k nb pad align n ch h w ho wo x g out :
  (0 < c)%nat -> width_ok c nb -> 2 ^ Z.of_nat nb <= p -> (nb mod c = 0)%nat -> dims x = [n; ch; h; w] ->
  accepts p (table_rows c F) (gridsample_dynamic p c k nb pad align [n; ch; ho; wo] x g) out ->
  well_formed out /\ dims out = [n; ch; ho; wo] /\ Forall (fun v => 0 <= v < 2 ^ Z.of_nat nb) (flat out).
Proof. exact (fun Hc Hn => dynamic_layer_range p c Hc F k nb Hn pad align n ch h w ho wo x g out). Qed.
Print Assumptions C149_range_partial.
Example C149_applies : prime bn254_r /\ width_ok 12 18 /\ width_ok 12 64 /\ 2 ^ Z.of_nat (rounded 12 18) <= bn254_r /\ 2 ^ Z.of_nat (rounded 12 64) <= bn254_r /\
  grid_shapes 1 1 1 3 1 1 row3 far_point /\ length [77] = prod [1; 1; 1; 1]%nat /\ Forall (fun v => 0 <= v < 2 ^ Z.of_nat 64) [77].
Proof.
  split; [exact bn254_prime|]. split; [w12'|]. split; [w12'|]. split; [vm_compute; discriminate|]. split; [vm_compute; discriminate|].
  split; [repeat split|]. split; [reflexivity|]. constructor; [lia|constructor].
Qed.

(** ** C150: GridSample in bilinear mode with a constant grid.  Refuted: negative values have no
    proof, at the edge zeros are not blended in, reflection is not done (the border pixel is
    read), and at the default configuration other values are accepted. *)
Theorem C150_negative_refuted F : exists x g y, grid_shapes 1 1 1 1 1 1 x g /\ flat x = [-4096] /\ sampled_bilinear Border true 12 1 1 1 1 1 1 x g y /\ flat y = [-4096] /\
  forall out, ~ accepts bn254_r (table_rows 12 F) (gridsample_bilinear bn254_r 12 12 36 Border true [1; 1; 1; 1]%nat (encoded bn254_r x) (flat g)) out.
Proof. exact (negative_refused F). Qed.
Print Assumptions C150_negative_refuted.
Theorem C150_zeros_refuted F : exists x g y z, grid_shapes 1 1 1 1 1 1 x g /\ sampled_bilinear Zeros false 12 1 1 1 1 1 1 x g y /\ flat y = [1024] /\ flat z = [4096] /\
  forall out, accepts bn254_r (table_rows 12 F) (gridsample_bilinear bn254_r 12 12 36 Zeros false [1; 1; 1; 1]%nat (encoded bn254_r x) (flat g)) out <->
    out = encoded bn254_r z.
Proof. exact (zeros_not_blended F). Qed.
Print Assumptions C150_zeros_refuted.
Theorem C150_reflection_refuted F : exists x g y z, grid_shapes 1 1 1 3 1 1 x g /\ sampled_bilinear Reflection true 12 1 1 1 3 1 1 x g y /\ flat y = [4096] /\ flat z = [12288] /\
  forall out, accepts bn254_r (table_rows 12 F) (gridsample_bilinear bn254_r 12 12 36 Reflection true [1; 1; 1; 1]%nat (encoded bn254_r x) (flat g)) out <->
    out = encoded bn254_r z.
Proof. exact (reflection_not_done F). Qed.
Print Assumptions C150_reflection_refuted.
Theorem C150_default_refuted F : accepts bn254_r (table_rows 12 F) (bilinear_element bn254_r 12 18 64 [0; 0; 0; 0] [2 ^ 18; 0; 0; 0]) 63.
Proof. exact (bilinear_default_unsound F). Qed.
Print Assumptions C150_default_refuted.
(** If the chunk divides both widths, and the padding is border or the grid lies inside the
    image, exactly the interpolated values are accepted, provided none is negative or too big. *)
Theorem C150_bilinear_partial p c F k nb pad align n ch h w ho wo x g y out :
  prime p -> (0 < c)%nat -> width_ok c k -> width_ok c nb -> (k mod c = 0)%nat -> (nb mod c = 0)%nat -> 16 * (2 ^ Z.of_nat nb * 2 ^ Z.of_nat k) <= p ->
  grid_shapes n ch h w ho wo x g -> h <> 0%nat -> w <> 0%nat -> Forall (fun v => Z.abs v <= 2 ^ Z.of_nat nb) (flat x) ->
  pad = Border \/ grid_inside align k n h w ho wo g -> sampled_bilinear pad align k n ch h w ho wo x g y ->
  accepts p (table_rows c F) (gridsample_bilinear p c k nb pad align [n; ch; ho; wo] (encoded p x) (flat g)) out <->
  Forall (fun v => 0 <= v < 2 ^ Z.of_nat nb) (flat y) /\ out = encoded p y.
Proof.
  exact (fun Hp Hc Hk Hn Mk Mn B S Hh Hw V P Y => bilinear_layer p Hp c Hc F k nb Hk Hn Mk Mn B pad align n ch h w ho wo x g y S Hh Hw V P Y out).
Qed.
Print Assumptions C150_bilinear_partial.
(** The honest prover, with the layer's own hint, then finds the interpolated values, if no pixel
    is negative and the widths leave the hint's machine integers room. *)
Theorem C150_honest_partial p c F G k nb pad align n ch h w ho wo x g y :
  prime p -> (0 < c)%nat -> (forall ins, G 50%nat ins 1%nat = gridsample_hint p ins 1) ->
  width_ok c k -> width_ok c nb -> (k mod c = 0)%nat -> (nb mod c = 0)%nat -> 16 * (2 ^ Z.of_nat nb * 2 ^ Z.of_nat k) <= p -> (k < 64)%nat -> (nb < 62)%nat ->
  grid_shapes n ch h w ho wo x g -> h <> 0%nat -> w <> 0%nat -> Forall (fun v => 0 <= v <= 2 ^ Z.of_nat nb) (flat x) ->
  pad = Border \/ grid_inside align k n h w ho wo g -> sampled_bilinear pad align k n ch h w ho wo x g y -> Forall (fun v => v < 2 ^ Z.of_nat nb) (flat y) ->
  run (honest_with G) (table_rowsb c F) (gridsample_bilinear p c k nb pad align [n; ch; ho; wo] (encoded p x) (flat g)) = Some (encoded p y).
Proof.
  exact (fun Hp Hc HG Hk Hn Mk Mn B K64 N62 S Hh Hw V P Y R => bilinear_layer_run p Hp c Hc F G HG k nb Hk Hn Mk Mn B K64 N62 pad align n ch h w ho wo x g y S Hh Hw V P Y R).
Qed.
Print Assumptions C150_honest_partial.
(** Half-way between -1 and 0 the value is 0; it is accepted, and the honest prover does not find it. *)
Theorem C150_tie_refuted F G : (forall ins, G 50%nat ins 1%nat = gridsample_hint bn254_r ins 1) -> exists x g y,
  grid_shapes 1 1 1 2 1 1 x g /\ flat x = [-1; 0] /\ sampled_bilinear Border true 12 1 1 1 2 1 1 x g y /\ flat y = [0] /\
  accepts bn254_r (table_rows 12 F) (gridsample_bilinear bn254_r 12 12 36 Border true [1; 1; 1; 1]%nat (encoded bn254_r x) (flat g)) (encoded bn254_r y) /\
  run (honest_with G) (table_rowsb 12 F) (gridsample_bilinear bn254_r 12 12 36 Border true [1; 1; 1; 1]%nat (encoded bn254_r x) (flat g)) = None.
Proof. exact (tie_refused F G). Qed.
Print Assumptions C150_tie_refuted.
Example C150_applies : width_ok 12 12 /\ width_ok 12 36 /\ 16 * (2 ^ Z.of_nat 36 * 2 ^ Z.of_nat 12) <= bn254_r /\ grid_shapes 1 1 1 3 1 1 row3 far_point /\
  Forall (fun v => Z.abs v <= 2 ^ Z.of_nat 36) (flat row3) /\ sampled_bilinear Border true 12 1 1 1 3 1 1 row3 far_point (one 12288) /\
  Forall (fun v => 0 <= v <= 2 ^ Z.of_nat 36) (flat row3) /\ Forall (fun v => v < 2 ^ Z.of_nat 36) (flat (one 12288)).
Proof.
  split; [w12'|]. split; [w12'|]. split; [vm_compute; discriminate|]. split; [repeat split|]. split; [repeat constructor; vm_compute; discriminate|].
  split; [|split; [repeat (constructor; [split; vm_compute; discriminate|]); constructor|constructor; [reflexivity|constructor]]].
  apply (single _ _ _ _ _ _ _ 0%Q 2%Q); [| |concrete]; intros u U; apply clamped_unique in U; auto; rewrite U; concrete.
Qed.

(** ** C151: GridSample in nearest mode with a constant grid reads the pixel nearest to the point,
    for every padding. *)
Theorem C151_nearest {T} (zero : T) pad align alpha n c h w ho wo (x : tensor T) g :
  grid_shapes n c h w ho wo x g -> h <> 0%nat -> w <> 0%nat -> exists y,
  gridsample_nearest zero alpha pad align [n; c; ho; wo] x (flat g) = Some y /\ sampled_nearest zero pad align alpha n c h w ho wo x g y.
Proof. exact (nearest_layer zero pad align alpha n c h w ho wo x g). Qed.
Print Assumptions C151_nearest.
(** All three modes have the announced shape. *)
Theorem C151_announced {T} n c h w ho wo (x : tensor T) g : grid_shapes n c h w ho wo x g -> infer_gridsample (dims x) (dims g) = Some [n; c; ho; wo].
Proof. exact (gridsample_announced n c h w ho wo x g). Qed.
Print Assumptions C151_announced.
Example C151_applies : grid_shapes 1 1 1 3 1 1 row3 far_point /\ reads Reflection true 3 (grid_at 4096 far_point 0 0 0 0) (Some 0%nat) /\
  reads Border true 3 (grid_at 4096 far_point 0 0 0 0) (Some 2%nat) /\ reads Zeros true 3 (grid_at 4096 far_point 0 0 0 0) None.
Proof.
  split; [repeat split|]. split; [|split].
  - exists 0%Q, 0. split; [split; [split; vm_compute; discriminate|]|split; [split; vm_compute; reflexivity|reflexivity]].
    exists (-1). left. vm_compute. reflexivity.
  - exists 4. split; [split; vm_compute; reflexivity|reflexivity].
  - exists 4. split; [split; vm_compute; reflexivity|]. right. split; [cbn; lia|reflexivity].
Qed.
