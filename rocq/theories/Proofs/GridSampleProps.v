(** GridSample: cases in which the layer is not what ONNX defines. *)
From Coq Require Import List Arith Bool ZArith QArith Qabs Qround Lqa Lia Znumtheory.
From Verif Require Import Spec.Numbers Spec.Shapes Spec.Tensors Spec.HonestProver Spec.Resize Spec.Selection Spec.MatMul Spec.GridSample Model.Shapes Model.DataMovement
  Model.Resize Model.GridSample Model.Builder Model.Gadgets Model.Selection Model.GridSampleCircuit Model.GridSampleHint Base.Pocklington
  Proofs.Builder Proofs.RangeCheck Proofs.Gadgets Proofs.Layers Proofs.HonestRun Proofs.Activations1 Proofs.Shapes Proofs.Tensors Proofs.DataMovement Proofs.Resize Proofs.GridSampleCircuit Proofs.GridSample Proofs.GridSampleLayer Proofs.ActivationProps.
Import Spec.Shapes ListNotations.
Local Open Scope Z_scope.

Definition one (v : Z) : tensor Z := {| dims := [1; 1; 1; 1]%nat; flat := [v] |}.
Lemma single pad align k h w x g ay ax v :
  (forall u, point pad align h (grid_at (2 ^ Z.of_nat k) g 0 0 0 1) u -> (u == ay)%Q) ->
  (forall u, point pad align w (grid_at (2 ^ Z.of_nat k) g 0 0 0 0) u -> (u == ax)%Q) ->
  v = (weighted (2 ^ Z.of_nat k) ay ax (pixel_at x h w 0 0) + 2 ^ Z.of_nat k / 2) / 2 ^ Z.of_nat k ->
  sampled_bilinear pad align k 1 1 h w 1 1 x g (one v).
Proof.
  intros Uy Ux V. split; [reflexivity|]. split; [reflexivity|]. intros b ch i j uy ux Hb Hch Hi Hj Py Px.
  replace b with 0%nat in * by lia. replace ch with 0%nat by lia. replace i with 0%nat in * by lia. replace j with 0%nat in * by lia.
  rewrite (weighted_comp _ uy ay ux ax) by auto. rewrite <- V. reflexivity.
Qed.
Ltac concrete := vm_compute; reflexivity.
Ltac w12' := split; [split; [apply Nat.ltb_lt; reflexivity|apply Nat.leb_le; reflexivity]|intros HW; vm_compute in HW; discriminate HW].

(** What the layer with border padding accepts of one output, with a chunk of 12 bits, scale 2^12 and 36 bits *)
Lemma border_one F align h w x g v out : h <> 0%nat -> w <> 0%nat ->
  grid_shapes 1 1 h w 1 1 x g -> Forall (fun v => Z.abs v <= 2 ^ 36) (flat x) -> sampled_bilinear Border align 12 1 1 h w 1 1 x g (one v) ->
  accepts bn254_r (table_rows 12 F) (gridsample_bilinear bn254_r 12 12 36 Border align [1; 1; 1; 1]%nat (encoded bn254_r x) (flat g)) out <->
  0 <= v < 2 ^ 36 /\ out = encoded bn254_r (one v).
Proof.
  intros Hh Hw S B Y.
  rewrite (bilinear_layer bn254_r bn254_prime 12 ltac:(lia) F 12 36 ltac:(w12') ltac:(w12') eq_refl eq_refl ltac:(vm_compute; discriminate)
    Border align 1 1 h w 1 1 x g (one v) S Hh Hw B (or_introl eq_refl) Y).
  cbn [one flat]. split; [intros (A & E); inversion A; auto|intros (A & E); auto].
Qed.

(** A negative value has no proof. *)
Definition zero_point : tensor Z := {| dims := [1; 1; 1; 2]%nat; flat := [0; 0] |}.
Lemma negative_refused F : exists x g y, grid_shapes 1 1 1 1 1 1 x g /\ flat x = [-4096] /\ sampled_bilinear Border true 12 1 1 1 1 1 1 x g y /\ flat y = [-4096] /\
  forall out, ~ accepts bn254_r (table_rows 12 F) (gridsample_bilinear bn254_r 12 12 36 Border true [1; 1; 1; 1]%nat (encoded bn254_r x) (flat g)) out.
Proof.
  exists (one (-4096)), zero_point, (one (-4096)). assert (S : grid_shapes 1 1 1 1 1 1 (one (-4096)) zero_point) by (repeat split).
  assert (Y : sampled_bilinear Border true 12 1 1 1 1 1 1 (one (-4096)) zero_point (one (-4096))).
  { apply (single _ _ _ _ _ _ _ 0%Q 0%Q); [| |concrete]; intros u U; apply clamped_unique in U; auto; rewrite U; concrete. }
  split; [exact S|]. split; [reflexivity|]. split; [exact Y|]. split; [reflexivity|]. intros out A.
  apply (border_one F true 1 1 _ _ (-4096)) in A; auto; [lia|]. repeat constructor; vm_compute; discriminate.
Qed.

(** Zeros: at the edge the pixel is not blended with the zeros outside. *)
Definition corner_point : tensor Z := {| dims := [1; 1; 1; 2]%nat; flat := [-4096; -4096] |}.
Lemma zeros_not_blended F : exists x g y z, grid_shapes 1 1 1 1 1 1 x g /\ sampled_bilinear Zeros false 12 1 1 1 1 1 1 x g y /\ flat y = [1024] /\ flat z = [4096] /\
  forall out, accepts bn254_r (table_rows 12 F) (gridsample_bilinear bn254_r 12 12 36 Zeros false [1; 1; 1; 1]%nat (encoded bn254_r x) (flat g)) out <->
    out = encoded bn254_r z.
Proof.
  exists (one 4096), corner_point, (one 1024), (one 4096). assert (S : grid_shapes 1 1 1 1 1 1 (one 4096) corner_point) by (repeat split).
  split; [exact S|]. split.
  { apply (single _ _ _ _ _ _ _ (- (1 # 2))%Q (- (1 # 2))%Q); [| |concrete]; intros u U; cbn [point] in U; rewrite U; concrete. }
  split; [reflexivity|]. split; [reflexivity|]. intros out.
  assert (E : build_bilinear_per_output [-4096; -4096] (pow2 12) 1 1 1 1 1 1 Zeros false = build_bilinear_per_output [-4096; -4096] (pow2 12) 1 1 1 1 1 1 Border false) by concrete.
  unfold gridsample_bilinear. cbn [encoded dims one flat corner_point]. rewrite E.
  assert (Y : sampled_bilinear Border false 12 1 1 1 1 1 1 (one 4096) corner_point (one 4096)).
  { apply (single _ _ _ _ _ _ _ 0%Q 0%Q); [| |concrete]; intros u U; apply clamped_unique in U; auto; rewrite U; concrete. }
  pose proof (border_one F false 1 1 (one 4096) corner_point 4096 out ltac:(lia) ltac:(lia) S ltac:(repeat constructor; vm_compute; discriminate) Y) as B.
  unfold gridsample_bilinear in B. cbn [encoded dims one flat corner_point] in B. rewrite B. split; [intros (_ & H); exact H|intros H; split; [lia|exact H]].
Qed.

(** Reflection is taken for border. *)
Lemma reflection_is_border p c kappa nb align os x g :
  gridsample_bilinear p c kappa nb Reflection align os x g = gridsample_bilinear p c kappa nb Border align os x g.
Proof. reflexivity. Qed.
Definition row3 : tensor Z := {| dims := [1; 1; 1; 3]%nat; flat := [4096; 8192; 12288] |}.
Definition far_point : tensor Z := {| dims := [1; 1; 1; 2]%nat; flat := [12288; 0] |}.
Lemma reflection_not_done F : exists x g y z, grid_shapes 1 1 1 3 1 1 x g /\ sampled_bilinear Reflection true 12 1 1 1 3 1 1 x g y /\ flat y = [4096] /\ flat z = [12288] /\
  forall out, accepts bn254_r (table_rows 12 F) (gridsample_bilinear bn254_r 12 12 36 Reflection true [1; 1; 1; 1]%nat (encoded bn254_r x) (flat g)) out <->
    out = encoded bn254_r z.
Proof.
  exists row3, far_point, (one 4096), (one 12288). assert (S : grid_shapes 1 1 1 3 1 1 row3 far_point) by (repeat split).
  split; [exact S|]. split.
  { apply (single _ _ _ _ _ _ _ 0%Q 0%Q); [| |concrete]; intros u (v & R & C).
    - destruct C as ((C1 & C2) & _). assert (Q : (qn 1 == 1)%Q) by reflexivity. lra.
    - apply (folded_ok _ _ 3 true v ltac:(lia) (Qeq_refl _)) in R. assert (V : (v == 0)%Q) by (rewrite R; concrete).
      assert (Q : (qn 3 == 3)%Q) by reflexivity. destruct C as ((C1 & C2) & [C|[C|C]]); lra. }
  split; [reflexivity|]. split; [reflexivity|]. intros out. rewrite reflection_is_border.
  assert (Y : sampled_bilinear Border true 12 1 1 1 3 1 1 row3 far_point (one 12288)).
  { apply (single _ _ _ _ _ _ _ 0%Q 2%Q); [| |concrete]; intros u U; apply clamped_unique in U; auto; rewrite U; concrete. }
  rewrite (border_one F true 1 3 row3 far_point 12288 out ltac:(lia) ltac:(lia) S ltac:(repeat constructor; vm_compute; discriminate) Y).
  split; [intros (_ & H); exact H|intros H; split; [lia|exact H]].
Qed.

(** At the default configuration the value 0.0 of four zero pixels can be proved to be 63. *)
Lemma bilinear_default_unsound F : accepts bn254_r (table_rows 12 F) (bilinear_element bn254_r 12 18 64 [0; 0; 0; 0] [2 ^ 18; 0; 0; 0]) 63.
Proof.
  unfold bilinear_element, check_interpolation. cbv zeta. g_hint 63; [split; [lia|reflexivity]|].
  match goal with |- context [range_check _ _ ?r 18] => replace r with (enc bn254_r (2 ^ 17 - 63 * 2 ^ 18)) by (vm_compute; reflexivity) end.
  g_unit.
  { apply rc_int; [exact bn254_prime|lia|w12'|split; [vm_compute; discriminate|vm_compute; reflexivity]|vm_compute; discriminate|].
    unfold rci. split; [vm_compute; discriminate|vm_compute; reflexivity]. }
  g_unit.
  { change 63 with (enc bn254_r 63). apply rc_int; [exact bn254_prime|lia|w12'|split; [vm_compute; discriminate|vm_compute; reflexivity]|vm_compute; discriminate|].
    unfold rci. split; [vm_compute; discriminate|vm_compute; reflexivity]. }
  reflexivity.
Qed.

(** Half-way between -1 and 0 the value is 0, which is accepted, and the hint refuses. *)
Definition pair_row : tensor Z := {| dims := [1; 1; 1; 2]%nat; flat := [-1; 0] |}.
Lemma tie_refused F G : (forall ins, G 50%nat ins 1%nat = gridsample_hint bn254_r ins 1) -> exists x g y,
  grid_shapes 1 1 1 2 1 1 x g /\ flat x = [-1; 0] /\ sampled_bilinear Border true 12 1 1 1 2 1 1 x g y /\ flat y = [0] /\
  accepts bn254_r (table_rows 12 F) (gridsample_bilinear bn254_r 12 12 36 Border true [1; 1; 1; 1]%nat (encoded bn254_r x) (flat g)) (encoded bn254_r y) /\
  run (honest_with G) (table_rowsb 12 F) (gridsample_bilinear bn254_r 12 12 36 Border true [1; 1; 1; 1]%nat (encoded bn254_r x) (flat g)) = None.
Proof.
  intros HG. exists pair_row, zero_point, (one 0). assert (S : grid_shapes 1 1 1 2 1 1 pair_row zero_point) by (repeat split).
  assert (Y : sampled_bilinear Border true 12 1 1 1 2 1 1 pair_row zero_point (one 0)).
  { apply (single _ _ _ _ _ _ _ 0%Q (1 # 2)%Q); [| |concrete]; intros u U; apply clamped_unique in U; auto; rewrite U; concrete. }
  split; [exact S|]. split; [reflexivity|]. split; [exact Y|]. split; [reflexivity|]. split.
  - apply (border_one F true 1 2 _ _ 0); auto; [repeat constructor; vm_compute; discriminate|split; [lia|reflexivity]].
  - assert (E : build_bilinear_per_output [0; 0] (pow2 12) 1 1 1 2 1 1 Border true = Some [([0; 1; 0; 1]%nat, [2048; 2048; 0; 0])]) by concrete.
    unfold gridsample_bilinear. cbn [encoded dims flat pair_row zero_point]. rewrite E. cbn [lift bind mapM fst snd Array.omap Array.aget].
    rewrite run_bind. match goal with |- context [run _ _ ?q] => assert (R : run (honest_with G) (table_rowsb 12 F) q = None); [|now rewrite R] end.
    rewrite run_bind. match goal with |- context [run _ _ ?q] => assert (R : run (honest_with G) (table_rowsb 12 F) q = None); [|now rewrite R] end.
    cbn [map Array.aget nth_error Array.obind lift bind]. unfold bilinear_element, hint1. cbv zeta. cbn [bind run honest_with]. rewrite HG.
    match goal with |- context [gridsample_hint ?a ?b ?d] => replace (gridsample_hint a b d) with (@None (list Z)) by concrete end. reflexivity.
Qed.
