(** GridSample in bilinear mode with a constant grid. *)
From Coq Require Import List Arith Bool ZArith QArith Qabs Qround Lqa Lia Znumtheory.
From Verif Require Base.Array.
From Verif Require Import Spec.Numbers Spec.Shapes Spec.Tensors Spec.HonestProver Spec.Resize Spec.Selection Spec.MatMul Spec.GridSample Model.Shapes Model.DataMovement
  Model.Resize Model.GridSample Model.Builder Model.Gadgets Model.Selection Model.GridSampleCircuit
  Proofs.Builder Proofs.RangeCheck Proofs.Shapes Proofs.Tensors Proofs.DataMovement Proofs.Conv Proofs.Resize Proofs.GridSampleCircuit Proofs.GridSample.
Import Spec.Shapes ListNotations.
Local Open Scope Z_scope.

Lemma share_comp u v i : (u == v)%Q -> (share u i == share v i)%Q.
Proof.
  intros E. unfold share. assert (A : (Qabs (u - inject_Z i) == Qabs (v - inject_Z i))%Q) by now rewrite E.
  destruct (Qle_bool 1 (Qabs (u - inject_Z i))) eqn:E1, (Qle_bool 1 (Qabs (v - inject_Z i))) eqn:E2; try reflexivity.
  - apply Qle_bool_iff in E1. apply Qle_bool_false in E2. lra.
  - apply Qle_bool_iff in E2. apply Qle_bool_false in E1. lra.
  - now rewrite A.
Qed.
Lemma weighted_comp alpha u u' v v' px : (u == u')%Q -> (v == v')%Q -> weighted alpha u v px = weighted alpha u' v' px.
Proof.
  intros A B. unfold weighted. rewrite (Qfloor_comp _ _ A), (Qfloor_comp _ _ B).
  assert (E : forall r q, Qfloor (share u r * share v q * inject_Z alpha + (1 # 2)) = Qfloor (share u' r * share v' q * inject_Z alpha + (1 # 2))).
  { intros r q. apply Qfloor_comp. now rewrite (share_comp _ _ r A), (share_comp _ _ q B). }
  now rewrite !E.
Qed.
Lemma clamped_unique n x u : clamped n x u -> n <> 0%nat -> (u == qclamp x 0 (qn (n - 1)))%Q.
Proof.
  intros ((I1 & I2) & C) N. pose proof (qn_pred n N) as E. pose proof (qn_ge (n - 1)) as G.
  destruct (qclamp_spec x (qn (n - 1)) G) as [(H & ->)|[(H & ->)|(H & ->)]]; destruct C as [C|[C|C]]; lra.
Qed.

(** One axis: index and weight of the two pixels. *)
Definition axis_ok (size i : nat) (wt : Q) (z : Z) (u : Q) : Prop :=
  (i < size)%nat /\ (0 <= wt <= 1)%Q /\ (share u z == wt)%Q /\ ((wt == 0)%Q \/ (i = Z.to_nat z /\ 0 <= z < Z.of_nat size)).
Lemma corners_ok x n : n <> 0%nat -> let u := qclamp x 0 (qn (n - 1)) in
  let '(f, ce, wf, wc) := bilinear_corners_1d x n in axis_ok n f wf (Qfloor u) u /\ axis_ok n ce wc (Qfloor u + 1) u.
Proof.
  intros N u. unfold bilinear_corners_1d. fold u. cbv zeta.
  assert (U : (0 <= u <= qn (n - 1))%Q).
  { unfold u. pose proof (qn_ge (n - 1)). destruct (qclamp_spec x (qn (n - 1)) ltac:(auto)) as [(H' & ->)|[(H' & ->)|(H' & ->)]]; lra. }
  pose proof (Qfloor_le u) as A. pose proof (Qlt_floor u) as B. set (f := Qfloor u) in *. rewrite inject_Z_plus in B. change (inject_Z 1) with 1%Q in B.
  assert (F0 : 0 <= f) by (assert (-1 < f); [apply zq; change (inject_Z (-1)) with (-(1))%Q; lra|lia]).
  assert (F1 : f <= Z.of_nat (n - 1)) by (rewrite Zle_Qle; fold (qn (n - 1)); lra).
  assert (S0 : (share u f == 1 - (u - inject_Z f))%Q).
  { unfold share. assert (E : (Qabs (u - inject_Z f) == u - inject_Z f)%Q) by (apply Qabs_pos; lra).
    destruct (Qle_bool 1 (Qabs (u - inject_Z f))) eqn:Q; [apply Qle_bool_iff in Q; lra|]. now rewrite E. }
  assert (S1 : (share u (f + 1) == u - inject_Z f)%Q).
  { unfold share. rewrite inject_Z_plus. change (inject_Z 1) with 1%Q. assert (E : (Qabs (u - (inject_Z f + 1)) == 1 - (u - inject_Z f))%Q)
      by (rewrite Qabs_neg by lra; ring).
    destruct (Qle_bool 1 (Qabs (u - (inject_Z f + 1)))) eqn:Q; [apply Qle_bool_iff in Q; lra|]. rewrite E. ring. }
  split; (split; [|split; [lra|split; [assumption|]]]).
  - lia.
  - right. lia.
  - lia.
  - destruct (Qlt_le_dec 0 (u - inject_Z f)) as [P|P]; [right|left; lra].
    assert (C : Qceiling u = f + 1) by (apply Qceiling_unique; [replace (f + 1 - 1) with f by lia|]; iz).
    assert (f < Z.of_nat (n - 1)) by (apply zq; fold (qn (n - 1)); lra). rewrite C. lia.
Qed.
Lemma round_pos q : (0 <= q)%Q -> round_away q = Qfloor (q + (1 # 2)).
Proof. intros H. unfold round_away. apply Qle_bool_iff in H. now rewrite H. Qed.
Lemma round_le q alpha : 0 < alpha -> (0 <= q <= 1)%Q -> 0 <= round_away (q * inject_Z alpha) <= alpha.
Proof.
  intros P H. assert (PA : (0 < inject_Z alpha)%Q) by (change 0%Q with (inject_Z 0); now rewrite <- Zlt_Qlt).
  assert (A : (0 <= q * inject_Z alpha)%Q) by (apply Qmult_le_0_compat; lra).
  assert (B : (q * inject_Z alpha <= 1 * inject_Z alpha)%Q) by (apply Qmult_le_compat_r; lra).
  rewrite round_pos by auto. split.
  - change 0 with (Qfloor 0). apply Qfloor_resp_le. lra.
  - pose proof (Qfloor_le (q * inject_Z alpha + (1 # 2))). assert (Qfloor (q * inject_Z alpha + (1 # 2)) < alpha + 1); [|lia]. apply zq. iz.
Qed.
Lemma term_ok alpha x h w b ch iy ix wy wx zy zx uy ux : 0 < alpha -> axis_ok h iy wy zy uy -> axis_ok w ix wx zx ux ->
  round_away (wy * wx * inject_Z alpha) * value_at x [b; ch; iy; ix] =
  Qfloor (share uy zy * share ux zx * inject_Z alpha + (1 # 2)) * pixel_at x h w b ch zy zx.
Proof.
  intros P (Ly & By & Sy & Cy) (Lx & Bx & Sx & Cx). assert (PA : (0 < inject_Z alpha)%Q) by (change 0%Q with (inject_Z 0); now rewrite <- Zlt_Qlt).
  assert (W : (0 <= wy * wx)%Q) by (apply Qmult_le_0_compat; lra).
  rewrite round_pos by (apply Qmult_le_0_compat; lra).
  assert (E : Qfloor (share uy zy * share ux zx * inject_Z alpha + (1 # 2)) = Qfloor (wy * wx * inject_Z alpha + (1 # 2))) by (apply Qfloor_comp; now rewrite Sy, Sx).
  rewrite E. assert (Z0 : (wy * wx == 0)%Q -> Qfloor (wy * wx * inject_Z alpha + (1 # 2)) = 0).
  { intros Z. change 0 with (Qfloor (0 + (1 # 2))). apply Qfloor_comp. rewrite Z. ring. }
  destruct Cy as [Cy|(-> & Ry)]; [rewrite Z0 by (rewrite Cy; ring); reflexivity|].
  destruct Cx as [Cx|(-> & Rx)]; [rewrite Z0 by (rewrite Cx; ring); reflexivity|].
  unfold pixel_at. replace ((0 <=? zy) && (zy <? Z.of_nat h) && (0 <=? zx) && (zx <? Z.of_nat w))%bool with true; [reflexivity|].
  symmetry. repeat (apply andb_true_intro; split); lia.
Qed.

(** A point of the specification is the clamped coordinate. *)
Lemma point_exists pad align n g : n <> 0%nat -> pad = Border \/ inside n (pixel_coord align n g) ->
  exists u, point pad align n g u /\ (u == qclamp (unnormalize g n align) 0 (qn (n - 1)))%Q.
Proof.
  intros N H. pose proof (unnormalize_eq g n align N) as E. pose proof (qn_pred n N) as P. pose proof (qn_ge (n - 1)) as G.
  set (x := pixel_coord align n g) in *. set (x' := unnormalize g n align) in *.
  assert (IC : inside n x -> (qclamp x' 0 (qn (n - 1)) == x)%Q).
  { intros (I1 & I2). destruct (qclamp_spec x' (qn (n - 1)) G) as [(K & ->)|[(K & ->)|(K & ->)]]; lra. }
  assert (CL : forall u, (u == qclamp x' 0 (qn (n - 1)))%Q -> clamped n x u).
  { intros u U. destruct (qclamp_spec x' (qn (n - 1)) G) as [(K & Q)|[(K & Q)|(K & Q)]]; rewrite Q in U; (split; [split; lra|]).
    - destruct (Qlt_le_dec x' 0); [left; split; lra|right; right; lra].
    - destruct (Qlt_le_dec (qn (n - 1)) x'); [right; left; split; lra|right; right; lra].
    - right. right. lra. }
  destruct pad.
  - destruct H as [H|H]; [discriminate|]. exists x. split; [reflexivity|]. now rewrite IC.
  - exists (qclamp x' 0 (qn (n - 1))). split; [apply CL|]; reflexivity.
  - destruct H as [H|H]; [discriminate|]. exists x. split; [|now rewrite IC]. exists x. destruct H as (I1 & I2). split.
    + split; [destruct align; lra|]. exists 0. left. change (inject_Z 0) with 0%Q. set (R := ((_ - _)%Q)) at 3. setoid_replace (2 * 0 * R)%Q with 0%Q by ring. fold x. lra.
    + apply CL. now rewrite IC.
Qed.
Lemma zeros_inside n g align : n <> 0%nat -> inside n (pixel_coord align n g) -> exists u, apply_padding (unnormalize g n align) n Zeros align = Some u.
Proof.
  intros N (I1 & I2). pose proof (unnormalize_eq g n align N) as E. cbn [apply_padding]. set (x' := unnormalize g n align) in *.
  qb; cbn [negb orb]; eauto; lra.
Qed.

Section Layer.
Variable p : Z.
Hypothesis Hprime : prime p.
Variable c : nat.
Hypothesis Hc : (0 < c)%nat.
Variable F : nat -> list (list Z).
Notation acc := (accepts p (table_rows c F)).
Variables k nb : nat.
Hypothesis Hk : width_ok c k.
Hypothesis Hn : width_ok c nb.
Hypothesis Mk : (k mod c = 0)%nat.
Hypothesis Mn : (nb mod c = 0)%nat.
Hypothesis Hbig : 16 * (pow2 nb * pow2 k) <= p.
Variables (pad : padding) (align : bool) (n cc h w ho wo : nat) (x g y : tensor Z).
Hypothesis Hs : grid_shapes n cc h w ho wo x g.
Hypothesis Hh : h <> 0%nat.
Hypothesis Hw : w <> 0%nat.
Hypothesis Hv : Forall (fun v => Z.abs v <= pow2 nb) (flat x).
Hypothesis Hpad : pad = Border \/ grid_inside align k n h w ho wo g.
Hypothesis Hy : sampled_bilinear pad align k n cc h w ho wo x g y.

Lemma value_bound b ch i j : Z.abs (value_at x [b; ch; i; j]) <= pow2 nb.
Proof.
  unfold value_at, elem. pose proof (pow2_pos nb). destruct (in_rangeb _ _); [|cbn; lia].
  destruct (nth_error _ _) eqn:E; [|cbn; lia]. apply nth_error_In in E. rewrite Forall_forall in Hv. now apply Hv.
Qed.
Definition spec_of (q : nat * nat * nat * nat) : list nat * list Z :=
  let '(b, ch, i, j) := q in
  let x_in := unnormalize (grid_at (pow2 k) g b i j 0) w align in
  let y_in := unnormalize (grid_at (pow2 k) g b i j 1) h align in
  let '(h_f, h_c, wh_f, wh_c) := bilinear_corners_1d y_in h in
  let '(w_f, w_c, ww_f, ww_c) := bilinear_corners_1d x_in w in
  (map (fun '(r, q) => b * cc * h * w + ch * h * w + r * w + q)%nat [(h_f, w_f); (h_f, w_c); (h_c, w_f); (h_c, w_c)],
   map (fun q => round_away (q * inject_Z (pow2 k))) [wh_f * ww_f; wh_f * ww_c; wh_c * ww_f; wh_c * ww_c]%Q).
Lemma build_ok : build_bilinear_per_output (flat g) (pow2 k) n cc h w ho wo pad align = Some (map spec_of (positions n cc ho wo)).
Proof.
  destruct Hs as (Wx & Dx & Wg & Dg). unfold build_bilinear_per_output. apply omap_map.
  intros (((b & ch) & i) & j) H. apply positions_in in H as (Hb & Hch & Hi & Hj). rewrite (grid_point_ok n ho wo) by auto. cbn [Array.obind spec_of].
  destruct (bilinear_corners_1d _ h) as (((h_f, h_c), wh_f), wh_c). destruct (bilinear_corners_1d _ w) as (((w_f, w_c), ww_f), ww_c).
  assert (B : match pad with Zeros => match apply_padding (unnormalize (grid_at (pow2 k) g b i j 1) h align) h Zeros align,
      apply_padding (unnormalize (grid_at (pow2 k) g b i j 0) w align) w Zeros align with Some _, Some _ => true | _, _ => false end | _ => true end = true).
  { destruct pad eqn:EP; auto. destruct Hpad as [|I]; [discriminate|]. destruct (I b i j Hb Hi Hj) as (I1 & I2).
    change (2 ^ Z.of_nat k) with (pow2 k) in *. destruct (zeros_inside _ _ _ Hh I1) as (? & ->). destruct (zeros_inside _ _ _ Hw I2) as (? & ->). reflexivity. }
  rewrite B. reflexivity.
Qed.
Lemma element_data b ch i j : (b < n)%nat -> (ch < cc)%nat -> (i < ho)%nat -> (j < wo)%nat ->
  exists xs, nth_error (flat y) (row_major [b; ch; i; j] [n; cc; ho; wo]) = Some ((dot xs (snd (spec_of (b, ch, i, j))) + pow2 k / 2) / pow2 k) /\
  Array.omap (Array.aget (flat (encoded p x))) (fst (spec_of (b, ch, i, j))) = Some (map (enc p) xs) /\
  length xs = 4%nat /\ length (snd (spec_of (b, ch, i, j))) = 4%nat /\ Forall (fun v => In v (flat x)) xs /\
  Forall (fun v => 0 <= v <= pow2 k) (snd (spec_of (b, ch, i, j))) /\
  Z.abs (dot xs (snd (spec_of (b, ch, i, j)))) <= 4 * (pow2 nb * pow2 k).
Proof.
  intros Hb Hch Hi Hj. destruct Hs as (Wx & Dx & Wg & Dg). destruct Hy as (Wy & Dy & Sy).
  assert (Pa : 0 < pow2 k) by apply pow2_pos.
  assert (PY : pad = Border \/ inside h (pixel_coord align h (grid_at (pow2 k) g b i j 1))) by (destruct Hpad as [|I]; [now left|right; apply (I b i j); auto]).
  assert (PX : pad = Border \/ inside w (pixel_coord align w (grid_at (pow2 k) g b i j 0))) by (destruct Hpad as [|I]; [now left|right; apply (I b i j); auto]).
  destruct (point_exists pad align h _ Hh PY) as (uy & Puy & Euy). destruct (point_exists pad align w _ Hw PX) as (ux & Pux & Eux).
  specialize (Sy b ch i j uy ux Hb Hch Hi Hj Puy Pux). rewrite (weighted_comp _ _ _ _ _ _ Euy Eux) in Sy.
  change (2 ^ Z.of_nat k) with (pow2 k) in Sy. rewrite elem_in in Sy by (rewrite Dy; repeat (constructor; [assumption|]); constructor). rewrite Dy in Sy.
  cbn [spec_of].
  pose proof (corners_ok (unnormalize (grid_at (pow2 k) g b i j 1) h align) h Hh) as CY.
  pose proof (corners_ok (unnormalize (grid_at (pow2 k) g b i j 0) w align) w Hw) as CX. cbv zeta in CX, CY.
  set (vy := qclamp (unnormalize (grid_at (pow2 k) g b i j 1) h align) 0 (qn (h - 1))) in *.
  set (vx := qclamp (unnormalize (grid_at (pow2 k) g b i j 0) w align) 0 (qn (w - 1))) in *.
  destruct (bilinear_corners_1d _ h) as (((h_f, h_c), wh_f), wh_c). destruct (bilinear_corners_1d _ w) as (((w_f, w_c), ww_f), ww_c).
  destruct CY as (CY1 & CY2), CX as (CX1 & CX2). cbn [map fst snd].
  assert (RD : forall r q, (r < h)%nat -> (q < w)%nat -> Array.aget (flat (encoded p x)) (b * cc * h * w + ch * h * w + r * w + q) = Some (enc p (value_at x [b; ch; r; q]))).
  { intros r q Hr Hq. unfold Array.aget. cbn [encoded flat]. rewrite nth_error_map.
    replace (b * cc * h * w + ch * h * w + r * w + q)%nat with (row_major [b; ch; r; q] (dims x)) by (rewrite Dx; unfold row_major; cbn; lia).
    rewrite value_in; auto. rewrite Dx. repeat (constructor; [assumption|]). constructor. }
  pose proof CY1 as (Ly1 & By1 & _). pose proof CY2 as (Ly2 & By2 & _). pose proof CX1 as (Lx1 & Bx1 & _). pose proof CX2 as (Lx2 & Bx2 & _).
  set (ws := [round_away (wh_f * ww_f * inject_Z (pow2 k)); round_away (wh_f * ww_c * inject_Z (pow2 k));
    round_away (wh_c * ww_f * inject_Z (pow2 k)); round_away (wh_c * ww_c * inject_Z (pow2 k))]).
  set (xs := [value_at x [b; ch; h_f; w_f]; value_at x [b; ch; h_f; w_c]; value_at x [b; ch; h_c; w_f]; value_at x [b; ch; h_c; w_c]]).
  assert (ED : dot xs ws = weighted (pow2 k) vy vx (pixel_at x h w b ch)).
  { unfold dot, xs, ws, weighted. cbn [combine fold_right fst snd].
    pose proof (term_ok (pow2 k) x h w b ch _ _ _ _ _ _ _ _ Pa CY1 CX1) as T1. pose proof (term_ok (pow2 k) x h w b ch _ _ _ _ _ _ _ _ Pa CY1 CX2) as T2.
    pose proof (term_ok (pow2 k) x h w b ch _ _ _ _ _ _ _ _ Pa CY2 CX1) as T3. pose proof (term_ok (pow2 k) x h w b ch _ _ _ _ _ _ _ _ Pa CY2 CX2) as T4.
    rewrite <- T1, <- T2, <- T3, <- T4. ring. }
  assert (QM : forall a e : Q, (0 <= a <= 1 -> 0 <= e <= 1 -> 0 <= a * e <= 1)%Q).
  { intros a e A B. split; [apply Qmult_le_0_compat; lra|]. assert (a * e <= 1 * e)%Q by (apply Qmult_le_compat_r; lra). lra. }
  assert (TB : forall a e r q, (0 <= a <= 1)%Q -> (0 <= e <= 1)%Q ->
    Z.abs (value_at x [b; ch; r; q] * round_away (a * e * inject_Z (pow2 k))) <= pow2 nb * pow2 k).
  { intros a e r q A B. pose proof (round_le (a * e) (pow2 k) Pa (QM a e A B)). pose proof (value_bound b ch r q). pose proof (pow2_pos nb).
    rewrite Z.abs_mul. apply Z.mul_le_mono_nonneg; lia. }
  assert (BD : Z.abs (dot xs ws) <= 4 * (pow2 nb * pow2 k)).
  { unfold dot, xs, ws. cbn [combine fold_right fst snd].
    pose proof (TB _ _ h_f w_f By1 Bx1). pose proof (TB _ _ h_f w_c By1 Bx2). pose proof (TB _ _ h_c w_f By2 Bx1). pose proof (TB _ _ h_c w_c By2 Bx2). lia. }
  exists xs. split; [rewrite ED; exact Sy|]. split; [cbn [Array.omap]; rewrite !RD by auto; reflexivity|]. split; [reflexivity|]. split; [reflexivity|].
  assert (IV : forall r q, (r < h)%nat -> (q < w)%nat -> In (value_at x [b; ch; r; q]) (flat x)).
  { intros r q Hr Hq. eapply nth_error_In. apply value_in; auto. rewrite Dx. repeat (constructor; [assumption|]). constructor. }
  split; [repeat (constructor; [apply IV; assumption|]); constructor|].
  split; [unfold ws; repeat (constructor; [apply round_le; [exact Pa|apply QM; assumption]|]); constructor|exact BD].
Qed.
Lemma element_iff b ch i j : (b < n)%nat -> (ch < cc)%nat -> (i < ho)%nat -> (j < wo)%nat ->
  exists r, nth_error (flat y) (row_major [b; ch; i; j] [n; cc; ho; wo]) = Some r /\ forall v,
  (acc (let* corners := lift (Array.omap (Array.aget (flat (encoded p x))) (fst (spec_of (b, ch, i, j)))) in
        bilinear_element p c k nb corners (snd (spec_of (b, ch, i, j)))) v <->
   0 <= r < pow2 nb /\ v = enc p r).
Proof.
  intros Hb Hch Hi Hj. destruct (element_data b ch i j Hb Hch Hi Hj) as (xs & Y & O & _ & _ & _ & _ & BD).
  eexists. split; [exact Y|]. intros v. rewrite O. cbn [lift bind].
  exact (bilinear_iff p Hprime c Hc F k nb Hk Hn Mk Mn Hbig xs _ v BD).
Qed.
Lemma bilinear_layer out :
  acc (gridsample_bilinear p c k nb pad align [n; cc; ho; wo] (encoded p x) (flat g)) out <->
  Forall (fun v => 0 <= v < pow2 nb) (flat y) /\ out = encoded p y.
Proof.
  pose proof Hs as (Wx & Dx & Wg & Dg). pose proof Hy as (Wy & Dy & _). unfold gridsample_bilinear. cbn [encoded dims]. rewrite Dx, build_ok. cbn [lift bind].
  assert (LY : length (flat y) = length (positions n cc ho wo)) by (rewrite positions_length; unfold well_formed in Wy; now rewrite Wy, Dy).
  assert (M : forall o, acc (mapM (fun spec => let* corners := lift (Array.omap (Array.aget (map (enc p) (flat x))) (fst spec)) in
      bilinear_element p c k nb corners (snd spec)) (map spec_of (positions n cc ho wo))) o <->
      Forall (fun v => 0 <= v < pow2 nb) (flat y) /\ o = map (enc p) (flat y)).
  { intros o. rewrite accepts_mapM.
    assert (EL : forall m q r, nth_error (positions n cc ho wo) m = Some q -> nth_error (flat y) m = Some r -> forall v,
      (acc (let* corners := lift (Array.omap (Array.aget (map (enc p) (flat x))) (fst (spec_of q))) in bilinear_element p c k nb corners (snd (spec_of q))) v
       <-> 0 <= r < pow2 nb /\ v = enc p r)).
    { intros m q r Q R v. assert (Lm : (m < prod [n; cc; ho; wo])%nat) by (rewrite <- positions_length; apply nth_error_Some; congruence).
      destruct (unravel_ok m [n; cc; ho; wo] Lm) as (cs & _ & Rc & Em).
      inversion Rc as [|b ? l1 ? Hb R1]; subst. inversion R1 as [|ch ? l2 ? Hch R2]; subst. inversion R2 as [|i ? l3 ? Hi R3]; subst.
      inversion R3 as [|j ? l4 ? Hj R4]; subst. inversion R4; subst. rewrite positions_nth in Q by auto. injection Q as <-.
      destruct (element_iff b ch i j Hb Hch Hi Hj) as (r' & E & I). rewrite E in R. injection R as ->. apply I. }
    revert o LY EL. generalize (flat y). induction (positions n cc ho wo) as [|q l IH]; intros [|r ys] o L EL; try discriminate; cbn [map].
    - split; [intros H; inversion H; auto|intros (_ & ->); constructor].
    - pose proof (EL 0%nat q r eq_refl eq_refl) as E0. assert (ET := fun m q' r' => EL (S m) q' r'). cbn [nth_error] in ET.
      injection L as L. specialize (fun o => IH ys o L ET). split.
      + intros H. inversion H as [|? v ? o' A B]; subst. apply E0 in A as (A & ->). apply IH in B as (B & ->). auto.
      + intros (A & ->). inversion A; subst. constructor; [now apply E0|apply IH; auto]. }
  split.
  - intros H. apply accepts_bind in H as (o & Ho & H). apply M in Ho as (A & ->). split; [exact A|]. unfold from_shape_vec in H.
    rewrite map_length, LY, positions_length, Nat.eqb_refl in H. cbn [lift accepts] in H. subst out. unfold encoded. now rewrite Dy.
  - intros (A & ->). apply accepts_bind. exists (map (enc p) (flat y)). split; [now apply M|]. unfold from_shape_vec.
    rewrite map_length, LY, positions_length, Nat.eqb_refl. cbn [lift accepts]. unfold encoded. now rewrite Dy.
Qed.
End Layer.
