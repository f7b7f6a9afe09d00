(** Concat and Split undo each other. *)
From Coq Require Import List Arith Bool ZArith Lia.
From Verif Require Import Base.Array Spec.Shapes Spec.Tensors Model.Shapes Model.DataMovement Proofs.Shapes Proofs.Tensors Proofs.DataMovement Proofs.DataMovement3 Proofs.DataMovement4.
Import ListNotations.
Local Open Scope list_scope.

Lemma find_piece {A} (f : A -> nat) : forall l i, i < list_sum (map f l) ->
  exists before a after, l = before ++ a :: after /\ list_sum (map f before) <= i < list_sum (map f before) + f a.
Proof.
  induction l as [|a l IH]; intros i H; cbn in H; [lia|]. change (fold_right Nat.add 0 ?m) with (list_sum m) in H.
  destruct (Nat.lt_ge_cases i (f a)) as [Lt|Ge].
  - exists [], a, l. cbn. split; auto. lia.
  - destruct (IH (i - f a)) as (b & x & r & -> & Hb); [lia|]. exists (a :: b), x, r. split; auto. cbn [map].
    cbn. change (fold_right Nat.add 0 ?m) with (list_sum m). lia.
Qed.
Theorem concat_unique {T} axis (xs : list (tensor T)) y z : xs <> [] -> well_formed y -> well_formed z ->
  concatenated axis xs y -> concatenated axis xs z -> y = z.
Proof.
  intros N Wy Wz (Hy & Dy & Cy) (Hz & Dz & Cz).
  destruct xs as [|x0 xs]; [contradiction|]. destruct (Cy [] x0 xs eq_refl) as (P1 & L1 & _). destruct (Cz [] x0 xs eq_refl) as (P2 & L2 & _).
  assert (D : dims y = dims z).
  { rewrite <- (put_same axis 0 (dims y)), <- (put_same axis 0 (dims z)) by auto.
    change (nth axis (dims y) 0) with (axis_dim axis y). change (nth axis (dims z) 0) with (axis_dim axis z). rewrite Dy, Dz.
    rewrite <- (put_put axis (list_sum _) 0 (dims y)), <- (put_put axis (list_sum _) 0 (dims z)) by auto. now rewrite <- P1, <- P2. }
  apply tensor_ext; auto. intros c R. apply in_range_nth in R. destruct R as (Lc & R).
  pose proof (R axis Hy) as Hi. fold (axis_dim axis y) in Hi. rewrite Dy in Hi.
  destruct (find_piece (axis_dim axis) _ _ Hi) as (before & x & after & E & Hb). set (off := list_sum (map (axis_dim axis) before)) in *.
  destruct (Cy _ _ _ E) as (P & L & Ey). destruct (Cz _ _ _ E) as (_ & _ & Ez). fold off in Ey, Ez.
  set (c' := put axis (nth axis c 0 - off) c).
  assert (Es : shift axis off c' = c).
  { unfold shift, c'. rewrite put_put by lia. rewrite put_nth by lia. rewrite Nat.eqb_refl.
    replace (nth axis c 0 - off + off) with (nth axis c 0) by lia. now rewrite put_same by lia. }
  assert (R' : in_range c' (dims x)).
  { apply in_range_nth. unfold c'. rewrite put_length by lia. split; [lia|]. intros i Hx. rewrite put_nth by lia.
    destruct (Nat.eqb_spec i axis) as [->|Ni]; [fold (axis_dim axis x); lia|].
    specialize (R i ltac:(lia)). apply (f_equal (fun l => nth i l 0)) in P. rewrite !put_nth in P by lia.
    destruct (Nat.eqb_spec i axis); [contradiction|]. now rewrite P. }
  specialize (Ey _ R'). specialize (Ez _ R'). rewrite Es in Ey, Ez. congruence.
Qed.
Theorem split_concat {T} a sizes n (x : tensor T) ys : well_formed x -> split a sizes n x = Some ys -> concat_layer a ys = Some x.
Proof.
  intros W E. destruct (split_only a sizes n x ys W E) as (N & V & szs & S).
  destruct (split_result a sizes n x W N szs V S) as (ys' & E' & Wy & Ln & _ & C). rewrite E in E'. injection E' as <-.
  set (axis := axis_position (Z.of_nat (length (dims x))) a) in *.
  destruct ys as [|y0 ys]; [cbn in Ln; lia|]. pose proof C as (Hx & Dx & Cx).
  destruct (Cx [] y0 ys eq_refl) as (P0 & L0 & _).
  destruct (concat_result a y0 ys Wy) as (z & Ez & Wz & Cz).
  - now rewrite L0.
  - rewrite L0. fold axis. apply Forall_forall. intros y Hy. apply in_split in Hy. destruct Hy as (l1 & l2 & ->).
    destruct (Cx (y0 :: l1) y l2 eq_refl) as (P & L & _). split; congruence.
  - rewrite Ez. f_equal. rewrite L0 in Cz. fold axis in Cz. apply (concat_unique axis (y0 :: ys)); auto. discriminate.
Qed.
