(** What GridSample reads, and the layers with a constant grid. *)
From Coq Require Import List Arith Bool ZArith QArith Qabs Qround Lqa Lia Znumtheory.
From Verif Require Import Base.Array Spec.Numbers Spec.Shapes Spec.Tensors Spec.Resize Spec.MatMul Spec.GridSample Model.Shapes Model.DataMovement
  Model.Resize Model.GridSample Proofs.Shapes Proofs.Tensors Proofs.DataMovement Proofs.Conv Proofs.Resize.
From Verif Require Proofs.GridSampleCircuit.
Import Spec.Shapes ListNotations.
Local Open Scope nat_scope.

Lemma qn_pred n : n <> 0 -> (qn (n - 1) == qn n - 1)%Q.
Proof. intros H. unfold qn. rewrite Nat2Z.inj_sub by lia. change (Z.of_nat 1) with 1%Z. rewrite inject_Z_minus. reflexivity. Qed.
Lemma unnormalize_eq g n align : n <> 0 -> (unnormalize g n align == pixel_coord align n g)%Q.
Proof. intros H. unfold unnormalize, pixel_coord. destruct align; [rewrite qn_pred by auto; reflexivity|field]. Qed.
Lemma qn_ge n : (0 <= qn n)%Q.
Proof. unfold qn. change 0%Q with (inject_Z 0). rewrite <- Zle_Qle. lia. Qed.
Lemma Qle_bool_false a b : Qle_bool a b = false -> (b < a)%Q.
Proof. intros H. destruct (Qlt_le_dec b a) as [|L]; auto. apply Qle_bool_iff in L. congruence. Qed.
Ltac qb := repeat match goal with
  | |- context [Qle_bool ?a ?b] => let E := fresh "E" in destruct (Qle_bool a b) eqn:E; [apply Qle_bool_iff in E|apply Qle_bool_false in E]
  end.
Lemma qclamp_spec x hi : (0 <= hi)%Q ->
  (x <= 0 /\ qclamp x 0 hi == 0)%Q \/ (hi <= x /\ qclamp x 0 hi == hi)%Q \/ (0 < x < hi /\ qclamp x 0 hi == x)%Q.
Proof. intros H. unfold qclamp. qb; [left|right; left|right; right]; split; try lra; try reflexivity. Qed.

Lemma zq a b : (inject_Z a < inject_Z b)%Q -> (a < b)%Z.
Proof. now rewrite <- Zlt_Qlt. Qed.
Lemma nearest_bound x i z : nearest_to x i -> (inject_Z z <= x)%Q -> (z <= i)%Z.
Proof. intros (A & B) H. assert (z < i + 1)%Z; [|lia]. apply zq. iz. Qed.
Lemma nearest_bound' x i z : nearest_to x i -> (x <= inject_Z z)%Q -> (i <= z)%Z.
Proof. intros (A & B) H. assert (i < z + 1)%Z; [|lia]. apply zq. iz. Qed.
Lemma nearest_clamp x n i : n <> 0 -> nearest_to x i -> nearest_px (qclamp x 0 (qn (n - 1))) n = border_pixel n i.
Proof.
  intros N A. unfold nearest_px, border_pixel. replace (Z.of_nat (n - 1)) with (Z.of_nat n - 1)%Z by lia.
  destruct (qclamp_spec x (qn (n - 1)) (qn_ge _)) as [(H & E)|[(H & E)|(H & E)]].
  - assert (i <= 0)%Z by (apply (nearest_bound' x); auto).
    replace (Qfloor (qclamp x 0 (qn (n - 1)) + (1 # 2))) with 0%Z by (symmetry; apply Qfloor_unique; iz). lia.
  - assert (Z.of_nat (n - 1) <= i)%Z by (apply (nearest_bound x); auto).
    replace (Qfloor (qclamp x 0 (qn (n - 1)) + (1 # 2))) with (Z.of_nat (n - 1))
      by (symmetry; apply Qfloor_unique; fold (qn (n - 1)); rewrite ?inject_Z_plus; fold (qn (n - 1)); iz). lia.
  - destruct A. replace (Qfloor (qclamp x 0 (qn (n - 1)) + (1 # 2))) with i by (symmetry; apply Qfloor_unique; iz). reflexivity.
Qed.
Lemma nearest_comp' x y i : (x == y)%Q -> nearest_to y i -> nearest_to x i.
Proof. unfold nearest_to. intros E (A & B). split; rewrite E; auto. Qed.

Lemma mul_ge m R : (0 < R)%Q -> (1 <= m)%Z -> (R <= inject_Z m * R)%Q.
Proof.
  intros H M. setoid_replace R with (1 * R)%Q at 1 by ring. apply Qmult_le_compat_r; [|lra]. change 1%Q with (inject_Z 1). now rewrite <- Zle_Qle.
Qed.
(** Reflection inside the image is unique. *)
Lemma fold_unique R a b m : (0 < R -> 0 <= a <= R -> 0 <= b <= R -> (a == b + 2 * inject_Z m * R \/ a == - b + 2 * inject_Z m * R) -> a == b)%Q.
Proof.
  intros P A B H. assert (E : (2 * inject_Z m * R == 2 * (inject_Z m * R))%Q) by ring. rewrite E in H. clear E.
  destruct (Z_lt_le_dec m 1) as [L|L]; [destruct (Z.eq_dec m 0) as [->|N]|].
  - change (inject_Z 0) with 0%Q in H. assert (E : (0 * R == 0)%Q) by ring. rewrite E in H. lra.
  - pose proof (mul_ge (- m) R P ltac:(lia)) as G. rewrite inject_Z_opp in G. assert (E : (- inject_Z m * R == - (inject_Z m * R))%Q) by ring.
    rewrite E in G. lra.
  - destruct (Z.eq_dec m 1) as [->|N].
    + change (inject_Z 1) with 1%Q in H. assert (E : (1 * R == R)%Q) by ring. rewrite E in H. lra.
    + pose proof (mul_ge (m - 1) R P ltac:(lia)) as G. rewrite inject_Z_minus in G. change (inject_Z 1) with 1%Q in G.
      assert (E : ((inject_Z m - 1) * R == inject_Z m * R - R)%Q) by ring. rewrite E in G. lra.
Qed.
Lemma rem_euclid_bound x d : (0 < d)%Q -> (0 <= rem_euclid x d < d)%Q.
Proof.
  intros H. unfold rem_euclid. pose proof (Qfloor_le (x / d)) as A. pose proof (Qlt_floor (x / d)) as B. rewrite inject_Z_plus in B. change (inject_Z 1) with 1%Q in B.
  assert (E : (x == x / d * d)%Q) by (field; lra).
  assert (inject_Z (Qfloor (x / d)) * d <= x / d * d)%Q by (apply Qmult_le_compat_r; lra).
  assert (x / d * d < (inject_Z (Qfloor (x / d)) + 1) * d)%Q by (apply Qmult_lt_compat_r; lra).
  assert (E2 : ((inject_Z (Qfloor (x / d)) + 1) * d == inject_Z (Qfloor (x / d)) * d + d)%Q) by ring. rewrite E2 in *. lra.
Qed.
Definition folded (x : Q) (size : nat) (align : bool) : Q :=
  let lo := (if align then 0 else - (1 # 2))%Q in
  let range := if align then qn (size - 1) else qn size in
  let rel := rem_euclid (x - lo) (2 * range) in
  ((if Qle_bool rel range then rel else 2 * range - rel) + lo)%Q.
Lemma folded_ok x x' n align u : 1 < n -> (x == x')%Q -> reflected align n x' u -> (u == folded x n align)%Q.
Proof.
  intros N X (U & k & H). unfold folded. set (lo := (if align then 0 else - (1 # 2))%Q) in *.
  set (hi := (if align then qn n - 1 else qn n - (1 # 2))%Q) in *. set (R := if align then qn (n - 1) else qn n).
  assert (ER : (R == hi - lo)%Q) by (unfold R, hi, lo; destruct align; [rewrite qn_pred by lia|]; lra).
  assert (PR : (0 < R)%Q) by (unfold R; destruct align; apply qn_pos; lia).
  pose proof (rem_euclid_bound (x - lo) (2 * R) ltac:(lra)) as B. set (rel := rem_euclid (x - lo) (2 * R)) in *.
  assert (D : (x - lo == rel + 2 * inject_Z (Qfloor ((x - lo) / (2 * R))) * R)%Q) by (unfold rel, rem_euclid; ring).
  set (f := Qfloor ((x - lo) / (2 * R))) in *. rewrite <- ER, <- X in H.
  assert (E : forall a b, (2 * inject_Z (a + b) * R == 2 * inject_Z a * R + 2 * inject_Z b * R)%Q) by (intros; rewrite inject_Z_plus; ring).
  assert (Em : forall a b, (2 * inject_Z (a - b) * R == 2 * inject_Z a * R - 2 * inject_Z b * R)%Q) by (intros; rewrite inject_Z_minus; ring).
  assert (E1 : (2 * inject_Z 1 * R == 2 * R)%Q) by (change (inject_Z 1) with 1%Q; ring).
  enough (u - lo == (if Qle_bool rel R then rel else 2 * R - rel))%Q by lra.
  destruct (Qle_bool rel R) eqn:Q; [apply Qle_bool_iff in Q|apply Qle_bool_false in Q].
  - destruct H as [H|H]; [apply (fold_unique R _ _ (k + f))|apply (fold_unique R _ _ (k - f))]; auto; try lra.
    + left. rewrite E. lra.
    + right. rewrite Em. lra.
  - destruct H as [H|H]; [apply (fold_unique R _ _ (k + f + 1))|apply (fold_unique R _ _ (k - f - 1))]; auto; try lra.
    + right. rewrite !E. lra.
    + left. rewrite !Em. lra.
Qed.
Lemma px_one x : nearest_px x 1 = 0.
Proof. unfold nearest_px. cbn [Nat.sub Z.of_nat]. lia. Qed.
Lemma border_one i : border_pixel 1 i = 0.
Proof. unfold border_pixel. cbn [Z.of_nat Pos.of_succ_nat]. lia. Qed.

Lemma reads_ok pad align n g r : n <> 0 -> reads pad align n g r ->
  match apply_padding (unnormalize g n align) n pad align with Some u => Some (nearest_px u n) | None => None end = r.
Proof.
  intros N. pose proof (unnormalize_eq g n align N) as E. unfold reads. set (x := unnormalize g n align) in *.
  destruct pad; cbn [apply_padding].
  - intros (i & A & R). apply (nearest_comp' x) in A; auto. pose proof (nearest_clamp x n i N A) as C. destruct A as (A1 & A2). destruct R as [(R & ->)|(R & ->)].
    + assert (0 <= inject_Z i)%Q by (change 0%Q with (inject_Z 0); rewrite <- Zle_Qle; lia).
      assert (inject_Z i <= qn n - 1)%Q by (unfold qn; change 1%Q with (inject_Z 1); rewrite <- inject_Z_minus, <- Zle_Qle; lia).
      qb; cbn [negb orb]; try lra. rewrite C. f_equal. unfold border_pixel. lia.
    + assert (C2 : (i <= -1 \/ Z.of_nat n <= i)%Z) by lia. destruct C2 as [C2|C2]; rewrite Zle_Qle in C2; fold (qn n) in C2; change (inject_Z (-1)) with (-(1))%Q in C2;
        qb; cbn [negb orb]; auto; lra.
  - intros (i & A & ->). apply (nearest_comp' x) in A; auto. now rewrite (nearest_clamp x n i N A).
  - intros (u & i & U & A & ->). f_equal. destruct (Nat.eq_dec n 1) as [->|N1]; [now rewrite px_one, border_one|].
    unfold reflect_coord. replace (n <=? 1) with false by (symmetry; apply Nat.leb_gt; lia). cbv zeta.
    fold (folded x n align). apply nearest_clamp; auto. eapply nearest_comp'; [|exact A]. symmetry. eapply folded_ok; eauto. lia.
Qed.

Lemma border_lt n i : n <> 0 -> border_pixel n i < n.
Proof. unfold border_pixel. lia. Qed.
Lemma nearest_px_lt x n : n <> 0 -> nearest_px x n < n.
Proof. unfold nearest_px. lia. Qed.
Lemma value_in (t : tensor Z) cc : well_formed t -> in_range cc (dims t) -> nth_error (flat t) (row_major cc (dims t)) = Some (value_at t cc).
Proof.
  intros W R. unfold value_at. rewrite elem_in by auto. destruct (nth_error (flat t) (row_major cc (dims t))) eqn:E; auto.
  apply nth_error_None in E. pose proof (row_major_lt _ _ R). unfold well_formed in W. lia.
Qed.
Lemma grid_point_ok n ho wo (g : tensor Z) alpha h w align b i j : well_formed g -> dims g = [n; ho; wo; 2] -> b < n -> i < ho -> j < wo ->
  grid_point (flat g) alpha h w ho wo align b i j = Some (unnormalize (grid_at alpha g b i j 0) w align, unnormalize (grid_at alpha g b i j 1) h align).
Proof.
  intros W D Hb Hi Hj. unfold grid_point, aget.
  assert (G : forall a, a < 2 -> nth_error (flat g) ((b * ho * wo + i * wo + j) * 2 + a) = Some (value_at g [b; i; j; a])).
  { intros a Ha. pose proof (value_in g [b; i; j; a] W ltac:(rewrite D; repeat (constructor; [assumption|]); constructor)) as V. rewrite <- V.
    replace (row_major [b; i; j; a] (dims g)) with ((b * ho * wo + i * wo + j) * 2 + a) by (rewrite D; unfold row_major; cbn; lia). reflexivity. }
  replace ((b * ho * wo + i * wo + j) * 2) with ((b * ho * wo + i * wo + j) * 2 + 0) at 1 by lia. rewrite !G by lia. reflexivity.
Qed.

Section Nearest.
Context {T : Type} (zero : T) (pad : padding) (align : bool) (alpha : Z) (n c h w ho wo : nat) (x : tensor T) (g : tensor Z).
Hypothesis Hs : grid_shapes n c h w ho wo x g.
Hypothesis Hh : h <> 0.
Hypothesis Hw : w <> 0.
Let axis_read size coord := match apply_padding (unnormalize coord size align) size pad align with Some u => Some (nearest_px u size) | None => None end.
Let out_at (q : nat * nat * nat * nat) : T :=
  let '(b, ch, i, j) := q in
  match axis_read h (grid_at alpha g b i j 1), axis_read w (grid_at alpha g b i j 0) with
  | Some r, Some q => match elem x [b; ch; r; q] with Some v => v | None => zero end
  | _, _ => zero
  end.
Lemma nearest_layer : exists y, gridsample_nearest zero alpha pad align [n; c; ho; wo] x (flat g) = Some y /\
  sampled_nearest zero pad align alpha n c h w ho wo x g y.
Proof.
  destruct Hs as (Wx & Dx & Wg & Dg). exists {| dims := [n; c; ho; wo]; flat := map out_at (positions n c ho wo) |}.
  assert (EX : forall b ch i j, b < n -> ch < c -> i < h -> j < w -> exists v, elem x [b; ch; i; j] = Some v /\
    nth_error (flat x) (b * c * h * w + ch * h * w + i * w + j) = Some v).
  { intros b ch i j A B C D. assert (R : in_range [b; ch; i; j] (dims x)) by (rewrite Dx; repeat constructor; auto).
    rewrite elem_in by auto. replace (b * c * h * w + ch * h * w + i * w + j) with (row_major [b; ch; i; j] (dims x)) by (rewrite Dx; unfold row_major; cbn; lia).
    destruct (nth_error (flat x) (row_major [b; ch; i; j] (dims x))) eqn:E; eauto. apply nth_error_None in E. pose proof (row_major_lt _ _ R). unfold well_formed in Wx. lia. }
  assert (OA : forall b ch i j, out_at (b, ch, i, j) = match axis_read h (grid_at alpha g b i j 1), axis_read w (grid_at alpha g b i j 0) with
    | Some r, Some q => match elem x [b; ch; r; q] with Some v => v | None => zero end | _, _ => zero end) by reflexivity.
  assert (LT : forall size coord r, size <> 0 -> axis_read size coord = Some r -> r < size).
  { intros size coord r N. unfold axis_read. destruct (apply_padding _ _ _ _); intros E; inversion E. now apply nearest_px_lt. }
  split.
  - unfold gridsample_nearest. rewrite Dx. unfold build_nearest_index_map.
    rewrite (omap_map _ (fun '(b, ch, i, j) => match axis_read h (grid_at alpha g b i j 1), axis_read w (grid_at alpha g b i j 0) with
      | Some r, Some q => Some (b * c * h * w + ch * h * w + r * w + q) | _, _ => None end)).
    2:{ intros (((b & ch) & i) & j) H. apply GridSampleCircuit.positions_in in H as (Hb & Hch & Hi & Hj).
        rewrite (grid_point_ok n ho wo) by auto. cbn [obind]. unfold axis_read. do 2 destruct (apply_padding _ _ _ _); reflexivity. }
    cbn [obind]. assert (OM : forall l, (forall q, In q l -> In q (positions n c ho wo)) ->
      omap (fun entry : option nat => match entry with Some idx => aget (flat x) idx | None => Some zero end)
        (map (fun '(b, ch, i, j) => match axis_read h (grid_at alpha g b i j 1), axis_read w (grid_at alpha g b i j 0) with
          | Some r, Some q => Some (b * c * h * w + ch * h * w + r * w + q) | _, _ => None end) l) = Some (map out_at l)).
    { induction l as [|(((b & ch) & i) & j) l IH]; intros I; [reflexivity|]. cbn [map omap]. rewrite IH by (intros; apply I; now right).
      assert (H : In (b, ch, i, j) (positions n c ho wo)) by (apply I; now left). apply GridSampleCircuit.positions_in in H as (Hb & Hch & Hi & Hj).
      rewrite OA. destruct (axis_read h _) as [r|] eqn:Er; [|reflexivity]. destruct (axis_read w _) as [q|] eqn:Eq; [|reflexivity].
      apply LT in Er, Eq; auto. destruct (EX b ch r q) as (v & E1 & E2); auto. unfold aget. rewrite E2. rewrite E1. reflexivity. }
    rewrite OM by auto. cbn [obind]. unfold from_shape_vec. rewrite map_length, GridSampleCircuit.positions_length, Nat.eqb_refl. reflexivity.
  - split; [unfold well_formed; cbn [flat dims]; now rewrite map_length, GridSampleCircuit.positions_length|]. split; [reflexivity|].
    intros b ch i j sy sx Hb Hch Hi Hj Ry Rx. apply reads_ok in Ry, Rx; auto. fold (axis_read h (grid_at alpha g b i j 1)) in Ry.
    fold (axis_read w (grid_at alpha g b i j 0)) in Rx.
    rewrite elem_in by (repeat constructor; auto). cbn [dims flat]. rewrite nth_error_map, GridSampleCircuit.positions_nth by auto. cbn [option_map].
    rewrite OA, Ry, Rx. destruct sy as [r|]; [|reflexivity]. destruct sx as [q|]; [|reflexivity].
    apply LT in Ry, Rx; auto. destruct (EX b ch r q) as (v & E1 & E2); auto. now rewrite E1.
Qed.
End Nearest.
Lemma gridsample_announced {T} n c h w ho wo (x : tensor T) g : grid_shapes n c h w ho wo x g -> infer_gridsample (dims x) (dims g) = Some [n; c; ho; wo].
Proof. intros (_ & -> & _ & ->). cbn. now rewrite Nat.eqb_refl. Qed.
