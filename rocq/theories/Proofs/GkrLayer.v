(** The polynomials of the two sumcheck phases of one layer. *)
From Coq Require Import List Bool Arith Lia Ring Field.
From Verif Require Import Base.Field Base.Array Base.Poly Spec.Multilinear Spec.Sumcheck Spec.Gkr Model.Polynomials Model.Layered Model.Gkr
  Proofs.Multilinear Proofs.Polynomials Proofs.Sumcheck Proofs.GkrClean Proofs.GkrVerify Proofs.GkrAlg.
Import ListNotations.

Section Proofs.
Variable K : field.
Add Field Kf : (fth K).
Local Open Scope fld_scope.
Variables simd_vars mpi_vars : nat.
Local Notation player := (player K).
Local Notation pgate := (pgate K).

Definition claim_value (V : values K) (ch : dual_challenge K) (alpha : option K) : K :=
  vmle V (rz_0 ch) (r_simd ch) (r_mpi ch) + match alpha, rz_1 ch with Some a, Some z => vmle V z (r_simd ch) (r_mpi ch) * a | _, _ => 0 end.

Section Layer.
Variables (l : player) (ch : dual_challenge K) (alpha : option K) (pub : list (list K)) (vals outs : nat -> nat -> list K).
Hypothesis HL : layer_ok (length pub / 2 ^ mpi_vars)%nat l.
Hypothesis C : ch_ok K simd_vars mpi_vars (pl_ovars K l) ch.
Hypothesis HE : forall k j, (k < 2 ^ mpi_vars)%nat -> (j < 2 ^ simd_vars)%nat ->
  eval_layer K l (vals k j) (lane_pub mpi_vars pub k j) = Some (outs k j).

Local Notation rs := (r_simd ch).
Local Notation rm := (r_mpi ch).
Local Notation W := (weight K ch alpha).
Local Notation V := (as_values vals).
Local Notation cadd := (clean_add K (pl_add K l) ch alpha).
Local Notation cmul := (clean_mul K (pl_mul K l) ch alpha).
Local Notation ccst := (clean_cst K simd_vars mpi_vars (pl_const K l) pub ch alpha).

Definition gm (g : pgate) : K := W (pg_out K g) * pg_coef K g.
(** hg: the part of the layer's function attached to position x *)
Definition hg (k j x : nat) : K :=
  fsum (map (fun g => gm g * V k j (in1 K g) * ind K (in0 K g) x) (pl_mul K l))
  + fsum (map (fun g => gm g * ind K (in0 K g) x) (pl_add K l)).
Definition Q1 (rx : list K) : K :=
  sumn (2 ^ mpi_vars) (fun k => sumn (2 ^ simd_vars) (fun j => eq_point rm k * eq_point rs j * (mle (V k j) rx * mle (hg k j) rx))).
Definition Q2 (rx s : list K) : K :=
  sumn (2 ^ mpi_vars) (fun k => eq_point rm k * (eq_vec rs s * (mle (fun j => mle (V k j) rx) s * mle (fun j => mle (hg k j) rx) s))).
Definition Q3 (rx s m : list K) : K := eq_vec rs s * (eq_vec rm m * (vmle V rx s m * vmle hg rx s m)).
Definition Vb (s m : list K) (b : nat) : K := mle (fun k => mle (fun j => V k j b) s) m.
Definition hy (rx : list K) (y : nat) : K := fsum (map (fun g => gm g * eq_point rx (in0 K g) * ind K (in1 K g) y) (pl_mul K l)).
Definition Q4 (c : K) (rx s m ry : list K) : K := c * eq_vec rs s * eq_vec rm m * (mle (Vb s m) ry * mle (hy rx) ry).

Lemma in0_lt g : In g (pl_mul K l) \/ In g (pl_add K l) -> (in0 K g < 2 ^ pl_ivars K l)%nat.
Proof.
  destruct HL as (Hm & Ha & _). intros [H|H].
  - destruct (Hm g H) as (a & b & r & E & Hx & _). unfold in0. now rewrite E.
  - destruct (Ha g H) as (a & r & E & Hx & _). unfold in0. now rewrite E.
Qed.
Lemma in1_lt g : In g (pl_mul K l) -> (in1 K g < 2 ^ pl_ivars K l)%nat.
Proof. destruct HL as (Hm & _). intros H. destruct (Hm g H) as (a & b & r & E & _ & Hx & _). unfold in1. now rewrite E. Qed.

(** ** A1: the claim *)
Lemma pub_value k j idx : (k < 2 ^ mpi_vars)%nat -> (idx < length pub / 2 ^ mpi_vars)%nat ->
  nth idx (lane_pub mpi_vars pub k j) 0 = nth j (nth (k * (length pub / 2 ^ mpi_vars) + idx) pub []) 0.
Proof.
  intros Hk Hi. unfold lane_pub. set (n := (length pub / 2 ^ mpi_vars)%nat) in *.
  assert (n * 2 ^ mpi_vars <= length pub)%nat by (unfold n; rewrite Nat.mul_comm; apply Nat.mul_div_le, pow2_nz).
  assert (Hl : (idx < length (firstn n (skipn (k * n) pub)))%nat) by (rewrite firstn_length, skipn_length; nia).
  rewrite (nth_indep _ 0 ((fun v => nth j v 0) [])) by (now rewrite map_length).
  rewrite (map_nth (fun v => nth j v 0)). f_equal.
  assert (E : nth idx (skipn (k * n) pub) [] = nth (k * n + idx) pub []).
  { rewrite <- (firstn_skipn (k * n) pub) at 2. rewrite app_nth2 by (rewrite firstn_length; lia). f_equal. rewrite firstn_length. nia. }
  rewrite <- E. rewrite <- (firstn_skipn n (skipn (k * n) pub)) at 2. now rewrite app_nth1.
Qed.

Lemma claim_weight : claim_value (as_values outs) ch alpha
  = sumn (2 ^ mpi_vars) (fun k => sumn (2 ^ simd_vars) (fun j => eq_point rm k * eq_point rs j * sumn (2 ^ pl_ovars K l) (fun o => nth o (outs k j) 0 * W o))).
Proof.
  destruct C as [Z0 Z1 Rs Rm].
  assert (E : forall z, length z = pl_ovars K l -> vmle (as_values outs) z rs rm
    = sumn (2 ^ mpi_vars) (fun k => sumn (2 ^ simd_vars) (fun j => eq_point rm k * eq_point rs j * sumn (2 ^ pl_ovars K l) (fun o => nth o (outs k j) 0 * eq_point z o)))).
  { intros z Lz. unfold vmle. unfold mle at 1. rewrite Rm. apply sumn_ext. intros k _. unfold mle at 1. rewrite Rs, <- sumn_scale_r.
    apply sumn_ext. intros j _. unfold mle, as_values. rewrite Lz. ring. }
  unfold claim_value. rewrite (E _ Z0). unfold weight.
  destruct alpha as [a|]; [destruct (rz_1 ch) as [z|] eqn:Ez|].
  - rewrite (E z (Z1 z eq_refl)), <- sumn_scale_r, <- sumn_plus. apply sumn_ext. intros k _.
    rewrite <- sumn_scale_r, <- sumn_plus. apply sumn_ext. intros j _.
    rewrite (sumn_ext K _ (fun o => nth o (outs k j) 0 * (eq_point (rz_0 ch) o + a * eq_point z o)) (fun o => nth o (outs k j) 0 * eq_point (rz_0 ch) o + nth o (outs k j) 0 * eq_point z o * a)) by (intros; ring).
    rewrite sumn_plus, sumn_scale_r. ring.
  - rewrite fadd_0_r. apply sumn_ext. intros k _. apply sumn_ext. intros j _. f_equal. apply sumn_ext. intros o _. ring.
  - rewrite fadd_0_r. apply sumn_ext. intros k _. apply sumn_ext. intros j _. f_equal. apply sumn_ext. intros o _. ring.
Qed.

Lemma sum_eq_const (c : K) : sumn (2 ^ mpi_vars) (fun k => sumn (2 ^ simd_vars) (fun j => eq_point rm k * eq_point rs j * c)) = c.
Proof.
  destruct C as [Z0 Z1 Rs Rm].
  transitivity (sumn (2 ^ length rm) (fun k => eq_point rm k * c)).
  - rewrite Rm. apply sumn_ext. intros k _.
    transitivity (eq_point rm k * c * sumn (2 ^ length rs) (eq_point rs)); [|rewrite sum_eq_point; ring].
    rewrite Rs, <- sumn_scale. apply sumn_ext. intros. ring.
  - rewrite sumn_scale_r, sum_eq_point. ring.
Qed.

Lemma cst_value : sumn (2 ^ mpi_vars) (fun k => sumn (2 ^ simd_vars) (fun j => eq_point rm k * eq_point rs j *
    fsum (map (fun g => W (pg_out K g) * cst_val K (lane_pub mpi_vars pub k j) g) (pl_const K l)))) = ccst.
Proof.
  destruct HL as (_ & _ & Hc & _). unfold clean_cst.
  transitivity (fsum (map (fun g => sumn (2 ^ mpi_vars) (fun k => sumn (2 ^ simd_vars) (fun j => eq_point rm k * eq_point rs j *
    (W (pg_out K g) * cst_val K (lane_pub mpi_vars pub k j) g)))) (pl_const K l))).
  - rewrite <- (sumn_fsum K (2 ^ mpi_vars) (fun g k => sumn (2 ^ simd_vars) (fun j => eq_point rm k * eq_point rs j *
    (W (pg_out K g) * cst_val K (lane_pub mpi_vars pub k j) g)))). apply sumn_ext. intros k _.
    rewrite <- (sumn_fsum K (2 ^ simd_vars) (fun g j => eq_point rm k * eq_point rs j *
    (W (pg_out K g) * cst_val K (lane_pub mpi_vars pub k j) g))). apply sumn_ext. intros j _.
    rewrite <- (fsum_scale_map K (eq_point rm k * eq_point rs j)). reflexivity.
  - apply fsum_ext. intros g Hg. destruct (Hc g Hg) as (_ & Hid). unfold cst_val.
    destruct (pg_ctype K g) as [| |id]; try apply sum_eq_const.
    unfold pub_mle. rewrite sumn_swap, <- sumn_scale. apply sumn_ext. intros j Hj.
    rewrite <- sumn_scale_r, <- sumn_scale. apply sumn_ext. intros k Hk. rewrite pub_value by auto. ring.
Qed.

Lemma layer_sum k j : (k < 2 ^ mpi_vars)%nat -> (j < 2 ^ simd_vars)%nat ->
  sumn (2 ^ pl_ovars K l) (fun o => nth o (outs k j) 0 * W o)
  = sumn (2 ^ pl_ivars K l) (fun x => V k j x * hg k j x) + fsum (map (fun g => W (pg_out K g) * cst_val K (lane_pub mpi_vars pub k j) g) (pl_const K l)).
Proof.
  intros Hk Hj. destruct HL as (_ & _ & _ & Hu).
  destruct (layer_weight K l _ _ _ W Hu (HE k j Hk Hj)) as (_ & E). rewrite E. clear E. f_equal.
  transitivity (sumn (2 ^ pl_ivars K l) (fun x => fsum (map (fun g => gm g * V k j (in1 K g) * ind K (in0 K g) x) (pl_mul K l)) * V k j x)
    + sumn (2 ^ pl_ivars K l) (fun x => fsum (map (fun g => gm g * ind K (in0 K g) x) (pl_add K l)) * V k j x)).
  - rewrite (pick K _ (pl_mul K l) (in0 K) (fun g => gm g * V k j (in1 K g))) by (intros g Hg; apply in0_lt; auto).
    rewrite (pick K _ (pl_add K l) (in0 K) gm) by (intros g Hg; apply in0_lt; auto).
    f_equal; apply fsum_ext; intros g _; unfold gm, as_values; ring.
  - rewrite <- sumn_plus. apply sumn_ext. intros x _. unfold hg. ring.
Qed.

Lemma A1 : claim_value (as_values outs) ch alpha - ccst = cube_sum (pl_ivars K l) Q1.
Proof.
  rewrite claim_weight, <- cst_value, <- sumn_minus.
  rewrite cube_sum_bits. unfold Q1. rewrite sumn_swap. apply sumn_ext. intros k Hk.
  rewrite <- sumn_minus. rewrite sumn_swap. apply sumn_ext. intros j Hj. rewrite layer_sum by auto.
  rewrite sumn_scale. rewrite (sumn_ext K (2 ^ pl_ivars K l) (fun i => mle (V k j) (bits_of K (pl_ivars K l) i) * mle (hg k j) (bits_of K (pl_ivars K l) i)) (fun x => V k j x * hg k j x)).
  - ring.
  - intros x Hx. now rewrite !mle_bits.
Qed.

(** ** A2, A3: the lane and process variables *)
Lemma eqv_bits (r : list K) n i : length r = n -> (i < 2 ^ n)%nat -> eq_vec r (bits_of K n i) = eq_point r i.
Proof. intros L Hi. rewrite eq_vec_ok by (now rewrite bits_of_length). now apply mle_bits. Qed.
Lemma A2 rx : Q1 rx = cube_sum simd_vars (Q2 rx).
Proof.
  destruct C as [Z0 Z1 Rs Rm]. rewrite cube_sum_bits. unfold Q1, Q2. rewrite sumn_swap.
  apply sumn_ext. intros j Hj. apply sumn_ext. intros k Hk. rewrite eqv_bits, !mle_bits by auto. ring.
Qed.
Lemma A3 rx s : Q2 rx s = cube_sum mpi_vars (Q3 rx s).
Proof.
  destruct C as [Z0 Z1 Rs Rm]. rewrite cube_sum_bits. unfold Q2, Q3, vmle. apply sumn_ext. intros k Hk.
  rewrite eqv_bits, !mle_bits by auto. ring.
Qed.

(** ** A4, A5: the second phase *)
Lemma hg_mle rx s m : length rx = pl_ivars K l ->
  vmle hg rx s m = fsum (map (fun g => gm g * eq_point rx (in0 K g) * Vb s m (in1 K g)) (pl_mul K l))
                 + fsum (map (fun g => gm g * eq_point rx (in0 K g)) (pl_add K l)).
Proof.
  intros L. unfold vmle.
  transitivity (mle (fun k => mle (fun j => fsum (map (fun g => gm g * eq_point rx (in0 K g) * V k j (in1 K g)) (pl_mul K l))) s) m
    + fsum (map (fun g => gm g * eq_point rx (in0 K g)) (pl_add K l))).
  - rewrite <- (mle_const K (fsum (map (fun g => gm g * eq_point rx (in0 K g)) (pl_add K l))) m), <- mle_plus.
    apply mle_ext. intros k _.
    rewrite <- (mle_const K (fsum (map (fun g => gm g * eq_point rx (in0 K g)) (pl_add K l))) s), <- mle_plus.
    apply mle_ext. intros j _. unfold hg. rewrite mle_plus, !mle_pick.
    + f_equal. apply fsum_ext. intros g _. ring.
    + intros g Hg. rewrite L. apply in0_lt. auto.
    + intros g Hg. rewrite L. apply in0_lt. auto.
  - f_equal. transitivity (mle (fun k => fsum (map (fun g => mle (fun j => gm g * eq_point rx (in0 K g) * V k j (in1 K g)) s) (pl_mul K l))) m).
    + apply mle_ext. intros k _. apply (mle_fsum K (fun g j => gm g * eq_point rx (in0 K g) * V k j (in1 K g))).
    + rewrite (mle_fsum K (fun g k => mle (fun j => gm g * eq_point rx (in0 K g) * V k j (in1 K g)) s)).
      apply fsum_ext. intros g _. unfold Vb. rewrite <- mle_scale. apply mle_ext. intros k _. apply mle_scale.
Qed.
Lemma A4 rx s m : length rx = pl_ivars K l ->
  Q3 rx s m - vmle V rx s m * cadd rx s m = cube_sum (pl_ivars K l) (Q4 (vmle V rx s m) rx s m).
Proof.
  intros L. rewrite cube_sum_bits. unfold Q3, Q4. rewrite hg_mle by auto.
  rewrite sumn_scale.
  rewrite (sumn_ext K (2 ^ pl_ivars K l) (fun i => mle (Vb s m) (bits_of K (pl_ivars K l) i) * mle (hy rx) (bits_of K (pl_ivars K l) i)) (fun y => hy rx y * Vb s m y)).
  2:{ intros y Hy. rewrite !mle_bits by auto. ring. }
  unfold hy. rewrite (pick K _ (pl_mul K l) (in1 K) (fun g => gm g * eq_point rx (in0 K g))) by (intros g Hg; apply in1_lt; auto).
  unfold clean_add.
  rewrite (fsum_ext K (fun g => W (pg_out K g) * eq_point rx (in0 K g) * pg_coef K g) (fun g => gm g * eq_point rx (in0 K g))) by (intros; unfold gm; ring).
  ring.
Qed.
Lemma vb_mle s m ry : mle (Vb s m) ry = vmle V ry s m.
Proof. unfold Vb, vmle. rewrite mle_swap. apply mle_ext. intros k _. apply mle_swap. Qed.
Lemma A5 c rx s m ry : length ry = pl_ivars K l -> Q4 c rx s m ry = c * vmle V ry s m * cmul rx ry s m.
Proof.
  intros L. unfold Q4, clean_mul. rewrite vb_mle. unfold hy.
  rewrite mle_pick by (intros g Hg; rewrite L; apply in1_lt; auto).
  rewrite (fsum_ext K (fun g => W (pg_out K g) * (eq_point rx (in0 K g) * eq_point ry (in1 K g) * pg_coef K g)) (fun g => gm g * eq_point rx (in0 K g) * eq_point ry (in1 K g))) by (intros; unfold gm; ring).
  ring.
Qed.
Lemma A6 rx s m : pl_mul K l = [] -> length rx = pl_ivars K l -> Q3 rx s m - vmle V rx s m * cadd rx s m = 0.
Proof.
  intros E L. rewrite A4 by auto. rewrite cube_sum_bits. apply sumn_zero. intros i Hi. unfold Q4. rewrite (mle_bits K _ (hy rx)) by auto.
  unfold hy. rewrite E. cbn. ring.
Qed.

(** ** Degrees *)
Lemma D1 : individual_degree 2 (pl_ivars K l) Q1.
Proof.
  apply (sumn_degree K 2 _ _ (fun k rx => sumn (2 ^ simd_vars) (fun j => eq_point rm k * eq_point rs j * (mle (V k j) rx * mle (hg k j) rx)))).
  intros k _. apply (sumn_degree K 2 _ _ (fun j rx => eq_point rm k * eq_point rs j * (mle (V k j) rx * mle (hg k j) rx))).
  intros j _. apply scale_degree, prod_degree.
Qed.
Lemma D2 rx : individual_degree 3 simd_vars (Q2 rx).
Proof.
  apply (sumn_degree K 3 _ _ (fun k s => eq_point rm k * (eq_vec rs s * (mle (fun j => mle (V k j) rx) s * mle (fun j => mle (hg k j) rx) s)))).
  intros k _. apply scale_degree, eqv_degree. apply C.
Qed.
Lemma D3 rx s : individual_degree 3 mpi_vars (Q3 rx s).
Proof. apply scale_degree. unfold vmle. apply eqv_degree. apply C. Qed.
Lemma D4 c rx s m : individual_degree 2 (pl_ivars K l) (Q4 c rx s m).
Proof. apply scale_degree, prod_degree. Qed.
End Layer.
End Proofs.
