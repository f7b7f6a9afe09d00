From Coq Require Import List Arith Bool ZArith QArith Qround Lqa Lia.
From Verif Require Import Base.Array Spec.Shapes Spec.Tensors Spec.Resize Model.Shapes Model.DataMovement Model.Resize
  Proofs.Shapes Proofs.Tensors Proofs.DataMovement Proofs.Resize.
Import ListNotations.
Local Open Scope nat_scope.

Lemma infer_sizes s sizes o : infer_resize s (Sizes sizes) = Some o <->
  length sizes = length s /\ Forall (fun z => (0 <= z)%Z) sizes /\ o = map Z.to_nat sizes.
Proof.
  unfold infer_resize. destruct (Nat.eqb_spec (length sizes) (length s)) as [E|N]; cbn [guard obind].
  2:{ split; [discriminate|]. intros (H & _). congruence. }
  transitivity (Forall (fun z => (0 <= z)%Z) sizes /\ o = map Z.to_nat sizes); [|tauto]. clear E. revert o.
  induction sizes as [|z r IH]; intros o; cbn [omap map].
  - split; [intros [= <-]; auto|]. intros (_ & ->). reflexivity.
  - destruct (Z.ltb_spec z 0).
    + cbn [obind]. split; [discriminate|]. intros (F & _). inversion F; lia.
    + cbn [obind]. destruct (omap _ r) as [m|]; cbn [obind].
      * destruct (proj1 (IH m) eq_refl) as (F & ->). split; [intros [= <-]; split; auto; constructor; auto; lia|]. intros (_ & ->). reflexivity.
      * split; [discriminate|]. intros (F & ->). inversion F; subst. destruct (proj2 (IH _) (conj H3 eq_refl)) || (exfalso; pose proof (proj2 (IH _) (conj H3 eq_refl)); discriminate).
Qed.
Lemma infer_scales s sc o : infer_resize s (Scales sc) = Some o <->
  length sc = length s /\ Forall (fun q => (0 < q)%Q) sc /\ o = scaled_dims s sc.
Proof.
  unfold infer_resize. destruct (Nat.eqb_spec (length sc) (length s)) as [E|N]; cbn [guard obind].
  2:{ split; [discriminate|]. intros (H & _). congruence. }
  transitivity (Forall (fun q => (0 < q)%Q) sc /\ o = scaled_dims s sc); [|tauto]. revert s E o. unfold scaled_dims, map2.
  induction sc as [|q r IH]; intros [|d s] E o; try discriminate; cbn [omap map combine].
  - split; [intros [= <-]; auto|]. intros (_ & ->). reflexivity.
  - cbn in E. specialize (IH s ltac:(lia)). destruct (Qle_bool q 0) eqn:Q.
    + cbn [obind]. split; [discriminate|]. intros (F & _). inversion F; subst. apply Qle_bool_iff in Q. exfalso. lra.
    + cbn [obind]. assert (0 < q)%Q. { apply Qnot_le_lt. intros C. apply Qle_bool_iff in C. congruence. }
      destruct (omap _ (combine s r)) as [m|]; cbn [obind].
      * destruct (proj1 (IH m) eq_refl) as (F & ->). split; [intros [= <-]; split; auto|]. intros (_ & ->). reflexivity.
      * split; [discriminate|]. intros (F & ->). inversion F; subst. exfalso. pose proof (proj2 (IH _) (conj H3 eq_refl)). discriminate.
Qed.

Lemma resize_sizes_holds {T} cm nm sizes (x : tensor T) : well_formed x -> Forall (lt 0) (dims x) ->
  ((exists y, resize_nearest cm nm (Sizes sizes) x = Some y) <-> length sizes = length (dims x) /\ Forall (fun z => (0 <= z)%Z) sizes) /\
  forall y, resize_nearest cm nm (Sizes sizes) x = Some y -> well_formed y /\ map Z.of_nat (dims y) = sizes /\
    resized cm nm (scales_of (dims x) (dims y)) x y.
Proof.
  intros W P. unfold resize_nearest.
  assert (A : length sizes = length (dims x) /\ Forall (fun z => (0 <= z)%Z) sizes -> exists y, resize_nearest cm nm (Sizes sizes) x = Some y /\
    well_formed y /\ map Z.of_nat (dims y) = sizes /\ resized cm nm (scales_of (dims x) (dims y)) x y).
  { intros (L & F). unfold resize_nearest. rewrite (proj2 (infer_sizes _ _ _) (conj L (conj F eq_refl))). cbn [obind].
    destruct (nearest_result cm nm x (map Z.to_nat sizes) W P) as (m & y & E1 & E2 & Wy & Dy & R); [now rewrite map_length|].
    rewrite E1. cbn [obind]. exists y. split; auto. split; auto. rewrite Dy. split; auto. rewrite map_map. rewrite <- (map_id sizes) at 2.
    apply map_ext_Forall. eapply Forall_impl; [|exact F]. intros; cbn in *; lia. }
  split.
  - split; [|intros H; destruct (A H) as (y & E & _); exists y; exact E].
    intros (y & E). destruct (infer_resize _ _) as [o|] eqn:I; [|discriminate]. apply infer_sizes in I. tauto.
  - intros y E. assert (H : length sizes = length (dims x) /\ Forall (fun z => (0 <= z)%Z) sizes).
    { destruct (infer_resize _ _) as [o|] eqn:I; [|discriminate]. apply infer_sizes in I. tauto. }
    destruct (A H) as (y' & E' & Q). unfold resize_nearest in E'. rewrite E in E'. injection E' as ->. exact Q.
Qed.
Lemma resized_comp {T} cm nm sc sc' (x y : tensor T) : Forall2 Qeq sc sc' -> resized cm nm sc x y -> resized cm nm sc' x y.
Proof.
  intros E (L & D & V). assert (L' : length sc = length sc') by (clear -E; induction E; cbn; auto).
  split; [congruence|]. split; auto. intros c R. rewrite V by auto. f_equal. apply map_ext. intros k. apply source_comp.
  clear -E. revert k. induction E; intros [|k]; cbn; auto; reflexivity.
Qed.
Lemma resize_scales_holds {T} cm nm sc (x : tensor T) : well_formed x -> Forall (lt 0) (dims x) ->
  ((exists y, resize_nearest cm nm (Scales sc) x = Some y) <-> length sc = length (dims x) /\ Forall (fun q => (0 < q)%Q) sc) /\
  forall y, resize_nearest cm nm (Scales sc) x = Some y -> well_formed y /\ dims y = scaled_dims (dims x) sc /\
    resized cm nm (scales_of (dims x) (dims y)) x y /\
    (whole_sizes (dims x) sc -> resized cm nm sc x y).
Proof.
  intros W P.
  assert (A : length sc = length (dims x) /\ Forall (fun q => (0 < q)%Q) sc -> exists y, resize_nearest cm nm (Scales sc) x = Some y /\
    well_formed y /\ dims y = scaled_dims (dims x) sc /\ resized cm nm (scales_of (dims x) (dims y)) x y /\ (whole_sizes (dims x) sc -> resized cm nm sc x y)).
  { intros (L & F). unfold resize_nearest. rewrite (proj2 (infer_scales _ _ _) (conj L (conj F eq_refl))). cbn [obind].
    destruct (nearest_result cm nm x (scaled_dims (dims x) sc) W P) as (m & y & E1 & E2 & Wy & Dy & R); [unfold scaled_dims; rewrite map2_length; auto|].
    rewrite E1. cbn [obind]. exists y. split; auto. split; auto. split; auto. rewrite Dy. split; auto. intros H. revert R. apply resized_comp.
    clear -H P F. unfold scales_of, scaled_dims, map2, whole_sizes in *. induction H as [|i q s r E H IH]; [constructor|]. inversion_clear P. inversion_clear F.
    cbn [combine map]. constructor; [|auto]. pose proof (qn_pos i ltac:(lia)) as Pi.
    assert (Pf : (0 <= Qfloor (qn i * q))%Z).
    { rewrite Zle_Qle. rewrite E. apply Qmult_le_0_compat; lra. }
    assert (En : qn (Z.to_nat (Qfloor (qn i * q))) = inject_Z (Qfloor (qn i * q))) by (unfold qn at 1; now rewrite Z2Nat.id).
    cbn [fst snd]. rewrite En, E. field. lra. }
  assert (B : forall y, resize_nearest cm nm (Scales sc) x = Some y -> length sc = length (dims x) /\ Forall (fun q => (0 < q)%Q) sc).
  { intros y E. unfold resize_nearest in E. destruct (infer_resize _ _) as [o|] eqn:I; [|discriminate]. apply infer_scales in I. tauto. }
  split.
  - split; [intros (y & E); eauto|intros H; destruct (A H) as (y & E & _); eauto].
  - intros y E. destruct (A (B y E)) as (y' & E' & Q). rewrite E in E'. injection E' as ->. exact Q.
Qed.
Definition resize_scales_exact : Prop := forall T cm nm sc (x : tensor T), well_formed x -> Forall (lt 0) (dims x) ->
  length sc = length (dims x) -> Forall (fun q => (0 < q)%Q) sc ->
  exists y, resize_nearest cm nm (Scales sc) x = Some y /\ dims y = scaled_dims (dims x) sc /\ resized cm nm sc x y.
Lemma resize_scales_fails : ~ resize_scales_exact.
Proof.
  intros H. specialize (H nat Asymmetric Floor [7 # 5]%Q {| dims := [2]; flat := [10; 20] |} eq_refl ltac:(repeat constructor) eq_refl).
  destruct H as (y & E & _ & (_ & _ & V)); [repeat constructor|].
  vm_compute in E. injection E as <-. specialize (V [1] ltac:(repeat constructor)). vm_compute in V. discriminate.
Qed.
