From Coq Require Import List Arith Bool ZArith QArith Qround Lqa Lia.
From Verif Require Import Base.Array Spec.Shapes Spec.Tensors Spec.Resize Model.Shapes Model.DataMovement Model.Resize
  Proofs.Shapes Proofs.Tensors Proofs.DataMovement Proofs.DataMovement5.
From Verif Require Proofs.Witness.
Import ListNotations.
Local Open Scope nat_scope.

(** *** Rounding *)
Lemma Qfloor_unique x n : (inject_Z n <= x)%Q -> (x < inject_Z (n + 1))%Q -> Qfloor x = n.
Proof.
  intros A B. pose proof (Qfloor_le x). pose proof (Qlt_floor x).
  assert (n < Qfloor x + 1)%Z by (rewrite Zlt_Qlt; eapply Qle_lt_trans; eauto).
  assert (Qfloor x < n + 1)%Z by (rewrite Zlt_Qlt; eapply Qle_lt_trans; eauto). lia.
Qed.
Lemma Qceiling_unique x n : (inject_Z (n - 1) < x)%Q -> (x <= inject_Z n)%Q -> Qceiling x = n.
Proof.
  intros A B. pose proof (Qle_ceiling x). pose proof (Qceiling_lt x).
  assert (n - 1 < Qceiling x)%Z by (rewrite Zlt_Qlt; eapply Qlt_le_trans; eauto).
  assert (Qceiling x - 1 < n)%Z by (rewrite Zlt_Qlt; eapply Qlt_le_trans; eauto). lia.
Qed.
Lemma inject_Z_minus a b : inject_Z (a - b) = (inject_Z a - inject_Z b)%Q.
Proof. unfold Z.sub, Qminus. now rewrite inject_Z_plus, inject_Z_opp. Qed.
Ltac iz := rewrite ?inject_Z_plus, ?inject_Z_minus in *; change (inject_Z 1) with 1%Q in *; change (inject_Z 0) with 0%Q in *; try lra.
Lemma rounding_ok x i m : i <> 0 ->
  apply_nearest_rounding x i m = Some (Z.to_nat (Z.max 0 (Z.min (Z.of_nat i - 1) (nearest m x)))).
Proof.
  intros N. unfold apply_nearest_rounding. rewrite (proj2 (Nat.eqb_neq i 0) N). cbn [guard negb obind].
  do 4 f_equal. pose proof (Qfloor_le x) as A. pose proof (Qlt_floor x) as B. set (f := Qfloor x) in *.
  rewrite inject_Z_plus in B. change (inject_Z 1) with 1%Q in B.
  destruct m; cbn [nearest]; auto; destruct (Qeq_bool (x - inject_Z f) (1 # 2)) eqn:T.
  - apply Qeq_bool_eq in T. symmetry. apply Qceiling_unique; iz.
  - apply Qeq_bool_neq in T. destruct (Qlt_le_dec (x - inject_Z f) (1 # 2)) as [L|L].
    + assert (E : Qceiling (x - (1 # 2)) = f) by (apply Qceiling_unique; iz). rewrite E. unfold round_away. destruct (Qle_bool 0 x); auto.
      apply Qfloor_unique; iz.
    + assert (~ (x - inject_Z f <= 1 # 2)%Q) by (intros L'; apply T; lra).
      assert (E : Qceiling (x - (1 # 2)) = (f + 1)%Z) by (apply Qceiling_unique; [replace (f + 1 - 1)%Z with f by lia|]; iz).
      rewrite E. unfold round_away. destruct (Qle_bool 0 x); auto. apply Qfloor_unique; iz.
  - apply Qeq_bool_eq in T. transitivity (f + 1)%Z; [|symmetry].
    + apply Qceiling_unique; [replace (f + 1 - 1)%Z with f by lia|]; iz.
    + apply Qfloor_unique; iz.
  - apply Qeq_bool_neq in T. destruct (Qlt_le_dec (x - inject_Z f) (1 # 2)) as [L|L].
    + assert (E : Qfloor (x + (1 # 2)) = f) by (apply Qfloor_unique; iz). rewrite E. unfold round_away. rewrite E.
      destruct (Qle_bool 0 x); auto. apply Qceiling_unique; iz.
    + assert (~ (x - inject_Z f <= 1 # 2)%Q) by (intros L'; apply T; lra).
      assert (E : Qfloor (x + (1 # 2)) = (f + 1)%Z) by (apply Qfloor_unique; iz).
      rewrite E. unfold round_away. rewrite E. destruct (Qle_bool 0 x); auto.
      apply Qceiling_unique; [replace (f + 1 - 1)%Z with f by lia|]; iz.
Qed.
Lemma nearest_comp m x y : (x == y)%Q -> nearest m x = nearest m y.
Proof. intros E. destruct m; cbn [nearest]; (apply Qfloor_comp || apply Qceiling_comp); now rewrite E. Qed.
Lemma qn_pos n : n <> 0 -> (0 < qn n)%Q.
Proof. intros H. unfold qn. change 0%Q with (inject_Z 0). rewrite <- Zlt_Qlt. lia. Qed.
(** The code uses the ratio of the sizes as the scale. *)
Lemma coord_ok cm i n o : i <> 0 -> n <> 0 -> (output_to_input_coord o i n cm == source_coord cm (qn n / qn i) i n o)%Q.
Proof.
  intros Hi Hn. pose proof (qn_pos i Hi) as Pi. pose proof (qn_pos n Hn) as Pn.
  assert (E : forall a, (a * qn i / qn n == a / (qn n / qn i))%Q) by (intros; field; split; lra).
  destruct cm; cbn [output_to_input_coord source_coord]; rewrite ?E; try reflexivity.
  - destruct (Nat.leb_spec n 1), (Nat.eqb_spec n 1); try lia; reflexivity.
  - destruct (1 <? n); [rewrite E|]; reflexivity.
Qed.

Definition coords_read (cm : coord_mode) (nm : nearest_mode) (sc : list Q) (s o c : list nat) : list nat :=
  map (fun k => source cm nm (nth k sc 1%Q) (nth k s 0) (nth k o 0) (nth k c 0)) (seq 0 (length s)).
Lemma source_lt cm nm q i n o : i <> 0 -> source cm nm q i n o < i.
Proof. intros H. unfold source. lia. Qed.
Lemma source_comp cm nm q q' i n o : (q == q')%Q -> source cm nm q i n o = source cm nm q' i n o.
Proof.
  intros E. unfold source. do 3 f_equal. apply nearest_comp. destruct cm; cbn [source_coord]; rewrite ?E; try reflexivity.
  destruct (1 <? n); [now rewrite E|reflexivity].
Qed.
Theorem nearest_result {T} cm nm (x : tensor T) out : well_formed x -> Forall (lt 0) (dims x) -> length out = length (dims x) ->
  exists m y, build_nearest_index_map (dims x) out cm nm = Some m /\ select out m (flat x) = Some y /\
    well_formed y /\ dims y = out /\ resized cm nm (scales_of (dims x) out) x y.
Proof.
  intros W P L. set (s := dims x) in *. unfold build_nearest_index_map.
  set (g := fun oc => coords_read cm nm (scales_of s out) s out oc).
  assert (Hg : forall oc, in_range oc out -> in_range (g oc) s).
  { intros oc R. apply in_range_nth. unfold g, coords_read. rewrite map_length, seq_length. split; auto. intros i Hi. rewrite nth_map_seq by auto.
    apply source_lt. rewrite Forall_forall in P. specialize (P (nth i s 0) (nth_In _ _ Hi)). lia. }
  match goal with |- context [omap ?f (seq 0 (prod out))] => set (F := f) end.
  destruct (index_map_ok F out (fun oc => row_major (g oc) s)) as (m & Em & Lm & Hm).
  { intros oc R. unfold F. rewrite unravel_row_major by auto. cbn [obind].
    pose proof (in_range_length _ _ R) as Lo. apply in_range_nth in R as (_ & R).
    rewrite (omap_total _ (fun k => nth k (g oc) 0)).
    - cbn [obind]. rewrite ravel_row_major.
      + f_equal. f_equal. assert (Lg : length (g oc) = length out) by (unfold g, coords_read; rewrite map_length, seq_length; lia).
        rewrite <- Lg. apply Verif.Proofs.Witness.map_nth_seq.
      + rewrite map_length, seq_length. auto.
    - intros k Hk. apply in_seq in Hk. rewrite !nth_get by lia. cbn [obind].
      assert (Hi : nth k s 0 <> 0). { rewrite Forall_forall in P. assert (Hk' : k < length s) by lia. specialize (P (nth k s 0) (nth_In _ _ Hk')). lia. }
      assert (Hn : nth k out 0 <> 0) by (specialize (R k ltac:(lia)); lia).
      rewrite rounding_ok by auto. f_equal. unfold g, coords_read. rewrite nth_map_seq by lia.
      unfold source. do 3 f_equal. apply nearest_comp. rewrite coord_ok by auto.
      unfold scales_of. rewrite (map2_nth _ _ _ _ 0 0) by lia. reflexivity. }
  destruct (select_ok x out m g W Lm) as (y & E & Wy & Dy & Ey).
  { intros oc R. split; auto. }
  exists m, y. split; auto. split; auto. split; auto. split; auto. split; [unfold scales_of; rewrite map2_length; auto|]. split; [now rewrite Dy|].
  intros c R. rewrite Dy in R |- *. rewrite Ey by auto. reflexivity.
Qed.
