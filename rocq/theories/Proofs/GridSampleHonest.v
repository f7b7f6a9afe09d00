(** GridSample in bilinear mode: the honest prover. *)
From Coq Require Import List Arith Bool ZArith Znumtheory Lia.
From Verif Require Base.Array.
From Verif Require Import Spec.Numbers Spec.Shapes Spec.Tensors Spec.HonestProver Spec.Selection Spec.MatMul Spec.GridSample Model.DataMovement
  Model.GridSample Model.Builder Model.Gadgets Model.Selection Model.GridSampleCircuit Model.GridSampleHint
  Proofs.Builder Proofs.RangeCheck Proofs.Gadgets Proofs.Layers Proofs.Layers2 Proofs.HonestRun Proofs.Rescale Proofs.Activations1 Proofs.Shapes Proofs.DataMovement Proofs.GridSampleCircuit Proofs.GridSampleLayer.
Import Spec.Shapes ListNotations.
Local Open Scope Z_scope.

Section S.
Variable p : Z.
Hypothesis Hprime : prime p.
Variable c : nat.
Hypothesis Hc : (0 < c)%nat.
Variable F : nat -> list (list Z).
Variable G : nat -> list Z -> nat -> option (list Z).
Hypothesis HG : forall ins, G 50%nat ins 1%nat = gridsample_hint p ins 1.
Notation rn := (run (honest_with G) (table_rowsb c F)).
Variables k nb : nat.
Hypothesis Hk : width_ok c k.
Hypothesis Hn : width_ok c nb.
Hypothesis Mk : (k mod c = 0)%nat.
Hypothesis Mn : (nb mod c = 0)%nat.
Hypothesis Hbig : 16 * (pow2 nb * pow2 k) <= p.
Hypothesis Hk64 : (k < 64)%nat.
Hypothesis Hn63 : (nb < 62)%nat.

Lemma sum_ok xs : forall ws s, length xs = length ws -> Forall (fun v => 0 <= v <= pow2 nb) xs -> Forall (fun v => 0 <= v <= pow2 k) ws ->
  0 <= s -> s + Z.of_nat (length xs) * (pow2 nb * pow2 k) <= 4 * (pow2 nb * pow2 k) ->
  hint_sum p (map (enc p) xs) (map (const p) ws) s = Some (s + dot xs ws).
Proof.
  pose proof (pow2_pos nb) as PN. pose proof (pow2_pos k) as PK.
  assert (KB : pow2 k <= 2 ^ 63) by (change (2 ^ 63) with (pow2 63); apply pow2_le; lia).
  assert (NB : pow2 nb <= 2 ^ 61) by (change (2 ^ 61) with (pow2 61); apply pow2_le; lia).
  assert (NK : pow2 nb * pow2 k <= 2 ^ 61 * 2 ^ 63) by (apply Z.mul_le_mono_nonneg; lia).
  assert (N1 : pow2 nb <= pow2 nb * pow2 k) by nia. assert (K1 : pow2 k <= pow2 nb * pow2 k) by nia.
  unfold dot. induction xs as [|x xs IH]; intros [|w ws] s L FX FW S0 S; try discriminate; cbn [map combine fold_right hint_sum]; [now rewrite Z.add_0_r|].
  inversion FX as [|? ? Hx FX']; subst. inversion FW as [|? ? Hw FW']; subst. injection L as L.
  replace (const p w) with w by (symmetry; apply Z.mod_small; lia). rewrite (enc_id p x) by lia.
  assert (X : 0 <= x * w <= pow2 nb * pow2 k) by (split; [nia|apply Z.mul_le_mono_nonneg; lia]).
  assert (PH : pow2 nb <= p / 2) by (apply Z.div_le_lower_bound; lia).
  unfold field_to_i64. replace (p / 2 <? x) with false by lia. unfold i64_max, u64_max.
  replace (2 ^ 63 - 1 <? x) with false by lia. replace (2 ^ 64 - 1 <? w) with false by lia.
  unfold is_i128. cbn [length] in S. rewrite Nat2Z.inj_succ in S.
  pose proof (Z.mul_nonneg_nonneg (Z.of_nat (length xs)) (pow2 nb * pow2 k) ltac:(lia) ltac:(lia)) as LL. rewrite Z.mul_succ_l in S.
  change (2 ^ 127) with (8 * (2 ^ 61 * 2 ^ 63)).
  replace ((- (8 * (2 ^ 61 * 2 ^ 63)) <=? x * w) && (x * w <=? 8 * (2 ^ 61 * 2 ^ 63) - 1)) with true by (symmetry; apply andb_true_intro; split; lia).
  replace ((- (8 * (2 ^ 61 * 2 ^ 63)) <=? s + x * w) && (s + x * w <=? 8 * (2 ^ 61 * 2 ^ 63) - 1)) with true by (symmetry; apply andb_true_intro; split; lia).
  cbn [negb]. rewrite IH by (auto; lia). f_equal. cbn [fst snd]. lia.
Qed.
Lemma dot_pos xs : forall ws, Forall (fun v => 0 <= v <= pow2 nb) xs -> Forall (fun v => 0 <= v <= pow2 k) ws -> 0 <= dot xs ws.
Proof.
  unfold dot. induction xs as [|x xs IH]; intros [|w ws] A B; cbn [combine fold_right]; try lia. inversion A; subst. inversion B; subst.
  specialize (IH ws ltac:(auto) ltac:(auto)). cbn [fst snd]. nia.
Qed.
Lemma element_run xs ws : length xs = 4%nat -> length ws = 4%nat -> Forall (fun v => 0 <= v <= pow2 nb) xs -> Forall (fun v => 0 <= v <= pow2 k) ws ->
  let r := (dot xs ws + pow2 k / 2) / pow2 k in r < pow2 nb -> rn (bilinear_element p c k nb (map (enc p) xs) ws) = Some (enc p r).
Proof.
  intros LX LW FX FW r R. pose proof (pow2_pos nb) as PN. pose proof (pow2_pos k) as PK. pose proof (prime_ge_2 _ Hprime).
  assert (K1 : pow2 k <= pow2 nb * pow2 k) by nia. assert (N1 : pow2 nb <= pow2 nb * pow2 k) by nia.
  assert (KB : pow2 k <= 2 ^ 63) by (change (2 ^ 63) with (pow2 63); apply pow2_le; lia).
  assert (NB : pow2 nb <= 2 ^ 61) by (change (2 ^ 61) with (pow2 61); apply pow2_le; lia).
  assert (D0 : 0 <= dot xs ws) by (apply dot_pos; auto).
  assert (H2 : 0 <= pow2 k / 2) by (apply Z.div_pos; lia).
  assert (R0 : 0 <= r) by (apply Z.div_pos; lia).
  assert (EK : const p (pow2 k) = pow2 k) by (apply Z.mod_small; lia).
  assert (HI : G 50%nat (map (enc p) xs ++ map (const p) ws ++ [const p (pow2 k)]) 1%nat = Some [enc p r]).
  { rewrite HG. unfold gridsample_hint. rewrite !app_length, !map_length, LX, LW. cbn [length Nat.add Nat.modulo Nat.divmod fst snd Nat.sub Nat.eqb negb].
    replace ((4 + (4 + 1)) mod 2 =? 0)%nat with false by reflexivity.
    destruct xs as [|x0 [|x1 [|x2 [|x3 [|]]]]]; try discriminate. destruct ws as [|w0 [|w1 [|w2 [|w3 [|]]]]]; try discriminate.
    pose proof (sum_ok [x0; x1; x2; x3] [w0; w1; w2; w3] 0 eq_refl FX FW ltac:(lia) ltac:(cbn [length Z.of_nat Pos.of_succ_nat Pos.succ]; lia)) as S.
    cbn [map app] in *. change (8 / 2)%nat with 4%nat. cbn [Nat.eqb Nat.mul Nat.add nth firstn skipn]. rewrite S, EK, Z.add_0_l.
    unfold u64_max. replace (2 ^ 64 - 1 <? pow2 k) with false by lia. replace (pow2 k =? 0) with false by lia.
    replace (0 <=? dot [x0; x1; x2; x3] [w0; w1; w2; w3]) with true by lia. fold r. unfold i64_max. rewrite Z.min_r by lia.
    replace (r <? 0) with false by lia. now rewrite enc_id by lia. }
  assert (RK : pow2 (rounded c k) = pow2 k) by (now rewrite (rounded_exact c k Mk)).
  assert (RN : pow2 (rounded c nb) = pow2 nb) by (now rewrite (rounded_exact c nb Mn)).
  unfold bilinear_element. cbv zeta. rewrite run_bind, (rn_custom c F G 50 _ _ HI). unfold check_interpolation. cbv zeta.
  change (const p 0) with (enc p 0). rewrite (sum_enc p c Hc), Z.add_0_l. encs.
  pose proof (Z.div_mod (dot xs ws + pow2 k / 2) (pow2 k) ltac:(lia)) as DM. fold r in DM. pose proof (Z.mod_pos_bound (dot xs ws + pow2 k / 2) (pow2 k) PK).
  rewrite run_bind, rn_rc; auto; [|rewrite RK; lia|apply rci_ex; auto; lia].
  rewrite run_bind, rn_rc; auto; [rewrite RN; lia|apply rci_ex; auto; lia].
Qed.

Variables (pad : padding) (align : bool) (n cc h w ho wo : nat) (x g y : tensor Z).
Hypothesis Hs : grid_shapes n cc h w ho wo x g.
Hypothesis Hh : h <> 0%nat.
Hypothesis Hw : w <> 0%nat.
Hypothesis Hv : Forall (fun v => 0 <= v <= pow2 nb) (flat x).
Hypothesis Hpad : pad = Border \/ grid_inside align k n h w ho wo g.
Hypothesis Hy : sampled_bilinear pad align k n cc h w ho wo x g y.
Hypothesis Hr : Forall (fun v => v < pow2 nb) (flat y).
Lemma bilinear_layer_run :
  rn (gridsample_bilinear p c k nb pad align [n; cc; ho; wo] (encoded p x) (flat g)) = Some (encoded p y).
Proof.
  pose proof Hs as (Wx & Dx & Wg & Dg). pose proof Hy as (Wy & Dy & _). unfold gridsample_bilinear. cbn [encoded dims].
  assert (Ha : Forall (fun v => Z.abs v <= pow2 nb) (flat x)) by (eapply Forall_impl; [|exact Hv]; cbn; intros; lia).
  rewrite Dx, (build_ok k pad align n cc h w ho wo x g y) by auto. cbn [lift bind].
  assert (LY : length (flat y) = length (positions n cc ho wo)) by (rewrite positions_length; unfold well_formed in Wy; now rewrite Wy, Dy).
  assert (M : rn (mapM (fun spec => let* corners := lift (Array.omap (Array.aget (map (enc p) (flat x))) (fst spec)) in
      bilinear_element p c k nb corners (snd spec)) (map (spec_of k align cc h w g) (positions n cc ho wo))) = Some (map (enc p) (flat y))).
  { assert (EL : forall m q r, nth_error (positions n cc ho wo) m = Some q -> nth_error (flat y) m = Some r ->
      rn (let* corners := lift (Array.omap (Array.aget (map (enc p) (flat x))) (fst (spec_of k align cc h w g q))) in bilinear_element p c k nb corners (snd (spec_of k align cc h w g q)))
      = Some (enc p r)).
    { intros m q r Q R. assert (Lm : (m < prod [n; cc; ho; wo])%nat) by (rewrite <- positions_length; apply nth_error_Some; congruence).
      destruct (unravel_ok m [n; cc; ho; wo] Lm) as (cs & _ & Rc & Em).
      inversion Rc as [|b ? l1 ? Hb R1]; subst. inversion R1 as [|ch ? l2 ? Hch R2]; subst. inversion R2 as [|i ? l3 ? Hi R3]; subst.
      inversion R3 as [|j ? l4 ? Hj R4]; subst. inversion R4; subst. rewrite positions_nth in Q by auto. injection Q as <-.
      destruct (element_data p c Hc k nb Mk Mn pad align n cc h w ho wo x g y Hs Hh Hw Ha Hpad Hy b ch i j Hb Hch Hi Hj)
        as (xs & Y & O & L1 & L2 & IX & FW & _).
      rewrite Y in R. injection R as R. cbn [encoded flat] in O. rewrite O. cbn [lift bind]. rewrite <- R. apply element_run; auto.
      - rewrite Forall_forall in IX, Hv |- *. auto.
      - apply nth_error_In in Y. rewrite Forall_forall in Hr. now apply Hr. }
    revert LY EL. generalize (flat y). induction (positions n cc ho wo) as [|q l IH]; intros [|r ys] L EL; try discriminate; [reflexivity|].
    cbn [map mapM]. rewrite run_bind, (EL 0%nat q r eq_refl eq_refl), run_bind, (IH ys); [reflexivity|now injection L|]. intros m. apply (EL (S m)). }
  rewrite run_bind. cbn [encoded flat]. rewrite M. unfold from_shape_vec. rewrite map_length, LY, positions_length, Nat.eqb_refl. cbn [lift run]. unfold encoded. now rewrite Dy.
Qed.
End S.
