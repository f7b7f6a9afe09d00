(** LayerNormalization. *)
From Coq Require Import ZArith List Bool Znumtheory Lia.
From Verif Require Import Spec.Numbers Spec.HonestProver Model.Builder Model.Gadgets Model.Layers Model.Activations
  Proofs.Builder Proofs.RangeCheck Proofs.Gadgets Proofs.Division Proofs.Layers Proofs.Layers2
  Proofs.HonestRun Proofs.Activations1 Proofs.Softmax.
Import ListNotations.
Local Open Scope Z_scope.

Lemma tol_pos kappa gammas : 0 <= ln_tol kappa gammas.
Proof. unfold ln_tol. pose proof (pow2_pos kappa). assert (0 <= fold_right (fun g m : Z => Z.max (Z.abs g) m) 0 gammas) by (induction gammas; cbn; lia). lia. Qed.

Lemma ln_tol_max kappa gammas : ln_tol kappa gammas = 2 * fold_right Z.max 0 (map Z.abs gammas) + 2 ^ Z.of_nat kappa + 4.
Proof.
  unfold ln_tol, pow2. f_equal. f_equal. f_equal. induction gammas as [|g l IH]; [reflexivity|]. cbn [fold_right map]. rewrite IH. reflexivity.
Qed.

Section L.
Variable p : Z.
Hypothesis Hprime : prime p.
Variable c : nat.
Hypothesis Hc : (0 < c)%nat.
Variable F : nat -> list (list Z).
Notation acc := (accepts p (table_rows c F)).
Variables kappa nb mb : nat.
Let s := pow2 kappa.
Let ds := (ln_div_shift kappa nb - kappa)%nat.
Notation R w := (pow2 (rounded c w)).
Hypothesis Hwk : width_ok c kappa.
Hypothesis Hwd : width_ok c (ds + 1).
Hypothesis Hwn : width_ok c nb.
Hypothesis Hwn1 : width_ok c (nb + 1).
Hypothesis Hwm : width_ok c (mb + 1).

Ltac encp := change (const p) with (enc p) in *; repeat (rewrite add_enc || rewrite sub_enc || rewrite mul_enc).

Lemma shift_eq : pow2 (ln_div_shift kappa nb) = s * pow2 ds.
Proof. unfold s. rewrite <- pow2_add. f_equal. unfold ds, ln_div_shift. lia. Qed.

Lemma rc_ok n z : width_ok c n -> R n <= p -> rci c n z -> acc (range_check p c (enc p z) n) tt.
Proof. intros Hw Hr H. apply rc_int; auto. unfold rci in H. lia. Qed.
Lemma rci0 n : rci c n 0.
Proof. unfold rci. pose proof (pow2_le _ _ (rounded_ge c n)). pose proof (pow2_pos n). lia. Qed.
Lemma rci_abs n z : rci c n z -> Z.abs z <= R n.
Proof. unfold rci. pose proof (pow2_le _ _ (rounded_ge c n)). pose proof (pow2_pos n). lia. Qed.

(** One element with inv_std = 0. *)
Lemma ln_element_zero tol Mn g b X Y :
  R kappa <= p -> R (ds + 1) <= p -> R nb <= p -> R (mb + 1) <= p -> R (np2_bits (2 * tol + 1)) <= p ->
  width_ok c (np2_bits (2 * tol + 1)) ->
  - pow2 (nb - 1) <= Y < pow2 nb - pow2 (nb - 1) -> Z.abs (Y * s - b) <= tol ->
  acc (ln_element p c kappa nb mb tol (enc p Mn) (enc p 0) (g, b) (enc p X) (enc p Y)) (enc p 0).
Proof.
  intros B1 B2 B3 B4 B5 Hwt HY Ht. pose proof (prime_ge_2 _ Hprime) as H2.
  assert (Bt : 2 * tol + 1 <= pow2 (np2_bits (2 * tol + 1))).
  { unfold np2_bits. pose proof (bit_length_bound (2 * tol + 1 - 1) ltac:(lia)). lia. }
  unfold ln_element. cbv zeta. cbn [fst snd]. fold ds. fold s. encp.
  g_unit; [apply rc_ok; auto; apply rci_full; auto; lia|].
  apply accepts_bind. exists (enc p 0). split.
  { rewrite shift_eq. apply (div_pow2_acc p Hprime c Hc F kappa ds Hwk Hwd B1 B2 ((X - Mn) * 0)). exists (pow2 ds), 0.
    pose proof (rci0 kappa) as Z0. unfold rci in Z0. pose proof (pow2_pos ds). pose proof (pow2_le _ _ (rounded_ge c (ds + 1))).
    assert (E1 : pow2 (ds + 1) = 2 * pow2 ds) by (rewrite pow2_add; change (pow2 1) with 2; lia).
    split; [lia|]. split; [lia|]. split; [f_equal; fold s; ring|]. f_equal. lia. }
  encp. g_unit; [apply rc_ok; auto; apply rci_full; auto|].
  { rewrite pow2_add. change (pow2 1) with 2. pose proof (pow2_pos mb). lia. }
  g_unit; [apply rc_ok; auto; apply rci_full; auto; lia|].
  g_unit; [apply rc_ok; auto; apply rci_full; auto; lia|]. reflexivity.
Qed.

(** What one element satisfies. *)
Lemma ln_element_acc tol Mn I g b X y q (B Gm Bb : Z) :
  R kappa <= p -> R (ds + 1) <= p -> R nb <= p -> 0 <= y < p ->
  width_ok c (np2_bits (2 * tol + 1)) -> 0 <= tol ->
  Z.abs X <= B -> Z.abs Mn <= R (nb + 1) -> Z.abs I <= R nb -> Z.abs g <= Gm -> Z.abs b <= Bb ->
  (B + R (nb + 1)) * R nb + 2 * (s * R (ds + 1)) + R kappa < p ->
  R (ds + 1) + 2 * R (mb + 1) < p ->
  s * (R nb + pow2 nb) + R (mb + 1) * Gm + Bb + tol + 2 * R (np2_bits (2 * tol + 1)) < p ->
  acc (ln_element p c kappa nb mb tol (enc p Mn) (enc p I) (g, b) (enc p X) y) q ->
  exists Y Q, y = enc p Y /\ q = enc p Q /\ rci c nb (Y + pow2 (nb - 1)) /\ rci c (mb + 1) (Q + pow2 mb) /\
    rci c kappa ((X - Mn) * I - s * Q) /\
    rci c (np2_bits (2 * tol + 1)) (Y * s - (Q * g + b) + tol) /\
    rci c (np2_bits (2 * tol + 1)) (tol - (Y * s - (Q * g + b))).
Proof.
  intros B1 B2 B3 Hy Hwt Ht HX HM HI Hg Hb S1 S2 S3 H. pose proof (prime_ge_2 _ Hprime) as H2.
  assert (P1 : 0 < s) by apply pow2_pos.
  pose proof (pow2_pos (rounded c nb)) as Q1. pose proof (pow2_pos (rounded c (nb + 1))) as Q2. pose proof (pow2_pos (rounded c kappa)) as Q3.
  pose proof (pow2_pos (rounded c (ds + 1))) as Q4. pose proof (pow2_pos (rounded c (mb + 1))) as Q5.
  assert (Q6 : 0 <= s * (R nb + pow2 nb)) by (apply Z.mul_nonneg_nonneg; [lia|]; pose proof (pow2_pos nb); lia).
  assert (Q7 : 0 <= R (mb + 1) * Gm) by (apply Z.mul_nonneg_nonneg; lia).
  pose proof (pow2_pos (rounded c (np2_bits (2 * tol + 1)))) as Q8.
  unfold ln_element in H. cbv zeta in H. cbn [fst snd] in H. fold ds in H. fold s in H. change (const p) with (enc p) in H.
  a_rc H Hy1. rewrite <- (enc_id p y Hy), add_enc in Hy1. apply rc_of in Hy1; auto; [|apply enc_range; lia]. destruct Hy1 as (Y' & HY & EY).
  assert (EYy : y = enc p (Y' - pow2 (nb - 1))).
  { rewrite <- (enc_id p y Hy). transitivity (sub p (enc p (y + pow2 (nb - 1))) (enc p (pow2 (nb - 1)))).
    - rewrite sub_enc. f_equal. lia.
    - rewrite EY, sub_enc. reflexivity. }
  set (Y := Y' - pow2 (nb - 1)) in *.
  apply accepts_bind in H as (q0 & Hd & H). rewrite sub_enc, mul_enc, shift_eq in Hd.
  apply (div_pow2_acc p Hprime c Hc F kappa ds Hwk Hwd B1 B2) in Hd. destruct Hd as (q' & r & Hq & Hr & He & ->).
  set (Q := q' - pow2 ds) in *.
  assert (HQ0 : Z.abs Q <= R (ds + 1)).
  { pose proof (pow2_le _ _ (rounded_ge c (ds + 1))). assert (E1 : pow2 (ds + 1) = 2 * pow2 ds) by (rewrite pow2_add; change (pow2 1) with 2; lia).
    pose proof (pow2_pos ds). unfold Q. lia. }
  fold s in He.
  assert (Er : (X - Mn) * I - s * Q = r).
  { assert (Z.abs ((X - Mn) * I) <= (B + R (nb + 1)) * R nb) by (rewrite Z.abs_mul; apply Z.mul_le_mono_nonneg; lia).
    assert (Z.abs (s * Q) <= s * R (ds + 1)) by (rewrite Z.abs_mul, (Z.abs_eq s) by lia; apply Z.mul_le_mono_nonneg_l; lia).
    pose proof (pow2_le _ _ (rounded_ge c kappa)). pose proof (pow2_pos kappa).
    assert (s * q' = s * Q + s * pow2 ds) by (unfold Q; ring).
    assert (0 <= s * R (ds + 1)) by (apply Z.mul_nonneg_nonneg; lia).
    apply enc_inj in He; lia. }
  a_rc H Hm. rewrite add_enc in Hm. apply rc_int in Hm; auto; [| |lia].
  2:{ pose proof (pow2_pos mb). assert (E1 : pow2 (mb + 1) = 2 * pow2 mb) by (rewrite pow2_add; change (pow2 1) with 2; lia).
      pose proof (pow2_le _ _ (rounded_ge c (mb + 1))). lia. }
  assert (HQ1 : Z.abs Q <= R (mb + 1)).
  { unfold rci in Hm. pose proof (pow2_pos mb). assert (E1 : pow2 (mb + 1) = 2 * pow2 mb) by (rewrite pow2_add; change (pow2 1) with 2; lia).
    pose proof (pow2_le _ _ (rounded_ge c (mb + 1))). lia. }
  assert (HYb : Z.abs Y <= R nb + pow2 nb).
  { apply rci_abs in HY. unfold Y. pose proof (pow2_pos (nb - 1)). pose proof (pow2_le (nb - 1) nb ltac:(lia)). lia. }
  rewrite EYy in H. rewrite !mul_enc, !add_enc, !sub_enc in H.
  assert (Hd : Z.abs (Y * s - (Q * g + b)) <= s * (R nb + pow2 nb) + R (mb + 1) * Gm + Bb).
  { assert (Z.abs (Y * s) <= s * (R nb + pow2 nb)).
    { rewrite Z.abs_mul, (Z.abs_eq s), Z.mul_comm by lia. apply Z.mul_le_mono_nonneg_l; lia. }
    assert (Z.abs (Q * g) <= R (mb + 1) * Gm) by (rewrite Z.abs_mul; apply Z.mul_le_mono_nonneg; lia). lia. }
  pose proof (pow2_le _ _ (rounded_ge c (np2_bits (2 * tol + 1)))) as Q9. pose proof (pow2_pos (np2_bits (2 * tol + 1))) as Q10.
  a_rc H T1. a_rc H T2. cbn in H. subst q.
  rewrite add_enc in T1.
  apply rc_int in T1; auto; [| |lia]; [|lia]. apply rc_int in T2; auto; [| |lia]; [|lia].
  exists Y, Q. split; [auto|]. split; [auto|]. split; [unfold Y; replace (Y' - pow2 (nb - 1) + pow2 (nb - 1)) with Y' by lia; auto|].
  split; [auto|]. split; [rewrite Er; unfold rci; exact Hr|]. split; auto.
Qed.

Section Lane.
Variables gammas betas Xs : list Z.
Let n := length Xs.
Let nz := Z.of_nat n.
Let tol := ln_tol kappa gammas.
Let wt := np2_bits (2 * tol + 1).
Let wm := np2_bits (2 * nz + 1).
Let wv := np2_bits (2 * (nz * s * s)).
Hypothesis Lg : length gammas = n.
Hypothesis Lb : length betas = n.
Hypothesis Hwt : width_ok c wt.
Hypothesis Hwmm : width_ok c wm.
Hypothesis Hwv : width_ok c wv.

(** With inv_std = 0 every output near beta is accepted, whatever the inputs. *)
Theorem ln_free Mn Ys :
  R kappa <= p -> R (ds + 1) <= p -> R nb <= p -> R (nb + 1) <= p -> R (mb + 1) <= p -> R wt <= p -> R wm <= p -> R wv <= p ->
  Z.abs (zsum Xs - nz * Mn) <= nz -> - pow2 nb <= Mn < pow2 nb ->
  Forall2 (fun b Y => - pow2 (nb - 1) <= Y < pow2 nb - pow2 (nb - 1) /\ Z.abs (Y * s - b) <= tol) betas Ys ->
  acc (layer_norm_lane p c kappa nb mb gammas betas (map (enc p) Xs)) (map (enc p) Ys).
Proof.
  intros B1 B2 B3 B4 B5 B6 B7 B8 HMn HMb HY. pose proof (prime_ge_2 _ Hprime) as H2.
  assert (LY : length Ys = n) by (rewrite <- Lb; clear - HY; induction HY; cbn [length]; congruence).
  unfold layer_norm_lane. rewrite map_length. fold n. rewrite Lg, Lb, Nat.eqb_refl. cbn [negb orb]. cbv zeta. fold s. fold tol.
  change (zn n) with nz. fold wm. fold wv.
  apply accepts_bind. exists (map (enc p) Ys ++ [enc p Mn; enc p 0]). split.
  { apply accepts_hintn. split; [rewrite app_length, map_length; cbn [length]; lia|].
    apply Forall_app. split; [|repeat constructor; apply enc_range; lia].
    apply Forall_forall. intros v Hv. apply in_map_iff in Hv as (Y & <- & _). apply enc_range; lia. }
  assert (Ef : firstn n (map (enc p) Ys ++ [enc p Mn; enc p 0]) = map (enc p) Ys).
  { rewrite firstn_app, map_length, LY, Nat.sub_diag. cbn [firstn]. rewrite app_nil_r. apply firstn_all2. rewrite map_length. lia. }
  assert (E1 : nth n (map (enc p) Ys ++ [enc p Mn; enc p 0]) 0 = enc p Mn).
  { rewrite app_nth2 by (rewrite map_length; lia). rewrite map_length, LY, Nat.sub_diag. reflexivity. }
  assert (E2 : nth (n + 1) (map (enc p) Ys ++ [enc p Mn; enc p 0]) 0 = enc p 0).
  { rewrite app_nth2 by (rewrite map_length; lia). rewrite map_length, LY. replace (n + 1 - n)%nat with 1%nat by lia. reflexivity. }
  rewrite Ef, E1, E2. change (const p) with (enc p).
  g_unit; [apply rc_ok; auto; apply rci0|].
  rewrite fold_add_enc, Z.add_0_l, mul_enc, sub_enc, !add_enc.
  g_unit.
  { apply rc_ok; auto. apply rci_full; auto. unfold wm, np2_bits. assert (0 <= nz) by (unfold nz; lia).
    pose proof (bit_length_bound (2 * nz + 1 - 1) ltac:(lia)). lia. }
  g_unit.
  { apply rc_ok; auto. apply rci_full; auto. rewrite pow2_add. change (pow2 1) with 2. lia. }
  apply accepts_bind. exists (repeat (enc p 0) n). split.
  - apply accepts_mapM.
    assert (Hgen : forall gs bs xs ys, length gs = length xs -> length bs = length xs ->
      Forall2 (fun b Y => - pow2 (nb - 1) <= Y < pow2 nb - pow2 (nb - 1) /\ Z.abs (Y * s - b) <= tol) bs ys ->
      Forall2 (fun a b => acc (ln_element p c kappa nb mb tol (enc p Mn) (enc p 0) (fst a) (fst (snd a)) (snd (snd a))) b)
        (combine (combine gs bs) (combine (map (enc p) xs) (map (enc p) ys))) (repeat (enc p 0) (length xs))).
    { intros gs bs xs ys. revert gs bs ys. induction xs as [|x xs IH]; intros [|g gs] [|b bs] ys L1 L2 Hf; cbn in L1, L2; try discriminate.
      - inversion Hf; subst. constructor.
      - inversion Hf as [|b' Y' bs' ys' Hh Ht]; subst. cbn [map combine length repeat]. constructor.
        + cbn [fst snd]. apply ln_element_zero; auto; tauto.
        + apply IH; auto. }
    apply Hgen; auto.
  - assert (Es : fold_left (add p) (map (fun q => mul p q q) (repeat (enc p 0) n)) (enc p 0) = enc p 0).
    { clear. induction n as [|k IH]; [reflexivity|]. cbn [repeat map fold_left]. rewrite mul_enc, add_enc. exact IH. }
    rewrite Es, sub_enc, add_enc. g_unit; [|reflexivity].
    replace (0 - nz * s * s + nz * s * s) with 0 by lia. apply rc_ok; auto. apply rci0.
Qed.

(** What accepted outputs satisfy in general. *)
Theorem ln_affine ys (B Gm Bb : Z) :
  R kappa <= p -> R (ds + 1) <= p -> R nb <= p -> R (nb + 1) <= p -> R wm <= p -> R wv <= p ->
  (forall X, In X Xs -> Z.abs X <= B) -> (forall g, In g gammas -> Z.abs g <= Gm) -> (forall b, In b betas -> Z.abs b <= Bb) ->
  (B + R (nb + 1)) * R nb + 2 * (s * R (ds + 1)) + R kappa < p ->
  R (ds + 1) + 2 * R (mb + 1) < p ->
  s * (R nb + pow2 nb) + R (mb + 1) * Gm + Bb + tol + 2 * R wt < p ->
  nz * (B + R (nb + 1)) + nz + 2 * R wm < p -> nz * (R (mb + 1) * R (mb + 1)) + 2 * R wv < p ->
  acc (layer_norm_lane p c kappa nb mb gammas betas (map (enc p) Xs)) ys ->
  exists Mn I Ys Qs, ys = map (enc p) Ys /\ length Ys = n /\ length Qs = n /\
    rci c wm (zsum Xs - nz * Mn + nz) /\ rci c nb I /\ rci c wv (zsum (map (fun Q => Q * Q) Qs)) /\
    forall i, (i < n)%nat -> let Y := nth i Ys 0 in let Q := nth i Qs 0 in
      rci c nb (Y + pow2 (nb - 1)) /\ rci c (mb + 1) (Q + pow2 mb) /\ rci c kappa ((nth i Xs 0 - Mn) * I - s * Q) /\
      rci c wt (Y * s - (Q * nth i gammas 0 + nth i betas 0) + tol) /\
      rci c wt (tol - (Y * s - (Q * nth i gammas 0 + nth i betas 0))).
Proof.
  intros B1 B2 B3 B4 B7 B8 HX Hg Hb S1 S2 S3 S4 S5 H. pose proof (prime_ge_2 _ Hprime) as H2.
  assert (Hn0 : 0 <= nz) by (unfold nz; lia).
  unfold layer_norm_lane in H. rewrite map_length in H. fold n in H. rewrite Lg, Lb, Nat.eqb_refl in H. cbn [negb orb] in H. cbv zeta in H.
  fold s in H. fold tol in H. change (zn n) with nz in H. fold wm in H. fold wv in H.
  apply accepts_bind in H as (out & Ho & H). apply accepts_hintn in Ho as (Lo & Fo). rewrite Forall_forall in Fo.
  set (ys0 := firstn n out) in *.
  assert (Ly : length ys0 = n) by (unfold ys0; rewrite firstn_length; lia).
  assert (Fy : forall y, In y ys0 -> 0 <= y < p).
  { intros y Hy. apply Fo. unfold ys0 in Hy. rewrite <- (firstn_skipn n out). apply in_or_app. auto. }
  assert (Fm : 0 <= nth n out 0 < p) by (apply Fo, nth_In; lia).
  assert (Fi : 0 <= nth (n + 1) out 0 < p) by (apply Fo, nth_In; lia).
  a_rc H H1. apply rc_of in H1; auto. destruct H1 as (I & HI & EI). rewrite EI in H.
  a_rc H H1. a_rc H H3. change (const p) with (enc p) in *.
  rewrite <- (enc_id p _ Fm), add_enc in H3. apply rc_of in H3; auto; [|apply enc_range; lia]. destruct H3 as (M' & HM' & EM').
  set (Mn := M' - pow2 nb).
  assert (EM : nth n out 0 = enc p Mn).
  { rewrite <- (enc_id p _ Fm). transitivity (sub p (enc p (nth n out 0 + pow2 nb)) (enc p (pow2 nb))).
    - rewrite sub_enc. f_equal. lia.
    - rewrite EM', sub_enc. reflexivity. }
  assert (HMn : Z.abs Mn <= R (nb + 1)).
  { unfold rci in HM'. pose proof (pow2_pos nb). assert (E1 : pow2 (nb + 1) = 2 * pow2 nb) by (rewrite pow2_add; change (pow2 1) with 2; lia).
    pose proof (pow2_le _ _ (rounded_ge c (nb + 1))). unfold Mn. lia. }
  rewrite EM in H, H1. rewrite fold_add_enc, Z.add_0_l, mul_enc, sub_enc, !add_enc in H1.
  pose proof (rci_abs _ _ HI) as HIb.
  assert (HsX : Z.abs (zsum Xs) <= nz * B).
  { assert (Hbb : forall X, In X Xs -> - B <= X <= B) by (intros X HX'; specialize (HX X HX'); lia).
    apply zsum_bounds in Hbb. fold n in Hbb. fold nz in Hbb. lia. }
  pose proof (pow2_pos (rounded c wm)) as Q1. pose proof (pow2_le _ _ (rounded_ge c wm)) as Q2. pose proof (pow2_pos wm) as Q3.
  assert (HnM : Z.abs (nz * Mn) <= nz * R (nb + 1)) by (rewrite Z.abs_mul, (Z.abs_eq nz) by lia; apply Z.mul_le_mono_nonneg_l; lia).
  apply rc_int in H1; auto; [|lia].
  apply accepts_bind in H as (qs & Hqs & H). apply accepts_mapM in Hqs.
  assert (Hgen : forall gs bs xs ysl qs, length gs = length xs -> length bs = length xs -> length ysl = length xs ->
      (forall X, In X xs -> Z.abs X <= B) -> (forall g, In g gs -> Z.abs g <= Gm) -> (forall b, In b bs -> Z.abs b <= Bb) ->
      (forall y, In y ysl -> 0 <= y < p) ->
      Forall2 (fun a b => acc (ln_element p c kappa nb mb tol (enc p Mn) (enc p I) (fst a) (fst (snd a)) (snd (snd a))) b)
        (combine (combine gs bs) (combine (map (enc p) xs) ysl)) qs ->
      exists Ys Qs, ysl = map (enc p) Ys /\ qs = map (enc p) Qs /\ length Ys = length xs /\ length Qs = length xs /\
      forall i, (i < length xs)%nat -> let Y := nth i Ys 0 in let Q := nth i Qs 0 in
      rci c nb (Y + pow2 (nb - 1)) /\ rci c (mb + 1) (Q + pow2 mb) /\ rci c kappa ((nth i xs 0 - Mn) * I - s * Q) /\
      rci c wt (Y * s - (Q * nth i gs 0 + nth i bs 0) + tol) /\
      rci c wt (tol - (Y * s - (Q * nth i gs 0 + nth i bs 0)))).
  { assert (Htol : 0 <= tol) by apply tol_pos. clear - Htol Hprime Hc Hwk Hwd Hwn Hwn1 Hwm Hwt B1 B2 B3 HIb HMn S1 S2 S3. intros gs bs xs. revert gs bs.
    induction xs as [|x xs IH]; intros [|g gs] [|b bs] [|y ysl] qs L1 L2 L3 HX Hg Hb Hy Hf; cbn in L1, L2, L3; try discriminate.
    - inversion Hf; subst. exists [], []. cbn. repeat split; auto; intros; lia.
    - cbn [map combine] in Hf. inversion Hf as [|? q ? qs' Hh Ht]; subst. cbn [fst snd] in Hh.
      apply (ln_element_acc tol Mn I g b x y q B Gm Bb) in Hh; auto.
      2:{ apply Hy; left; auto. } 2:{ apply HX; left; auto. } 2:{ apply Hg; left; auto. } 2:{ apply Hb; left; auto. }
      destruct Hh as (Y & Q & -> & -> & Hh).
      apply IH in Ht; try (intros; auto; fail); try lia;
        [|intros; apply HX; right; auto|intros; apply Hg; right; auto|intros; apply Hb; right; auto|intros; apply Hy; right; auto].
      destruct Ht as (Ys & Qs & -> & -> & L4 & L5 & Ht). exists (Y :: Ys), (Q :: Qs). cbn [map length].
      split; [auto|]. split; [auto|]. split; [lia|]. split; [lia|]. intros [|i] Hi; cbn [nth]; [exact Hh|]. apply Ht. lia. }
  apply Hgen in Hqs; auto. clear Hgen. destruct Hqs as (Ys & Qs & EY & EQ & LY & LQ & Hall).
  a_rc H Hv. cbn in H. rewrite EQ in Hv.
  assert (Es : fold_left (add p) (map (fun q => mul p q q) (map (enc p) Qs)) (enc p 0) = enc p (zsum (map (fun Q => Q * Q) Qs))).
  { rewrite map_map. rewrite (map_ext _ (fun Q => enc p (Q * Q))) by (intros; apply mul_enc).
    rewrite <- (map_map (fun Q => Q * Q) (enc p)), fold_add_enc. f_equal. }
  rewrite Es, sub_enc, add_enc in Hv. replace (zsum (map (fun Q => Q * Q) Qs) - nz * s * s + nz * s * s) with (zsum (map (fun Q => Q * Q) Qs)) in Hv by lia.
  assert (HQb : forall v, In v (map (fun Q => Q * Q) Qs) -> 0 <= v <= R (mb + 1) * R (mb + 1)).
  { intros v Hv'. apply in_map_iff in Hv' as (Q & <- & HQ). apply (In_nth _ _ 0) in HQ as (i & Hi & Ei).
    destruct (Hall i ltac:(lia)) as (_ & Hm & _). rewrite Ei in Hm. unfold rci in Hm.
    pose proof (pow2_pos mb). assert (E1 : pow2 (mb + 1) = 2 * pow2 mb) by (rewrite pow2_add; change (pow2 1) with 2; lia).
    pose proof (pow2_le _ _ (rounded_ge c (mb + 1))).
    split; [apply Z.square_nonneg|]. rewrite <- (Z.abs_square Q). apply Z.mul_le_mono_nonneg; lia. }
  apply zsum_bounds in HQb. rewrite map_length in HQb. replace (Z.of_nat (length Qs)) with nz in HQb by (unfold nz, n; lia).
  pose proof (pow2_pos (rounded c wv)) as Q4. pose proof (pow2_le _ _ (rounded_ge c wv)) as Q5. pose proof (pow2_pos wv) as Q6.
  apply rc_int in Hv; auto; [|lia].
  exists Mn, I, Ys, Qs. split; [congruence|]. split; [exact LY|]. split; [exact LQ|]. split; [auto|]. split; [auto|]. split; [auto|]. exact Hall.
Qed.

(** The honest prover. *)
Variable G : nat -> list Z -> nat -> option (list Z).
Notation rn := (run (honest_with G) (table_rowsb c F)).

Lemma ln_element_run Mn I g b X Y :
  R kappa <= p -> R (ds + 1) <= p -> R nb <= p -> R (mb + 1) <= p -> R wt <= p -> s * R (ds + 1) + R kappa <= p ->
  - pow2 (nb - 1) <= Y < pow2 nb - pow2 (nb - 1) -> Z.abs ((X - Mn) * I) < s * pow2 ds ->
  - pow2 mb <= (X - Mn) * I / s < pow2 mb -> Z.abs (Y * s - ((X - Mn) * I / s * g + b)) <= tol ->
  rn (ln_element p c kappa nb mb tol (enc p Mn) (enc p I) (g, b) (enc p X) (enc p Y)) = Some (enc p ((X - Mn) * I / s)).
Proof.
  intros B1 B2 B3 B4 B5 B6 HY HD HQ Ht. pose proof (prime_ge_2 _ Hprime) as H2. assert (Htp : 0 <= tol) by apply tol_pos.
  assert (Bt : 2 * tol + 1 <= pow2 wt).
  { unfold wt, np2_bits. pose proof (bit_length_bound (2 * tol + 1 - 1) ltac:(lia)). lia. }
  unfold ln_element. cbv zeta. cbn [fst snd]. fold ds. fold s. fold wt. encp.
  rewrite run_bind, rn_rc; auto; [|apply rci_full; auto; lia].
  rewrite run_bind. rewrite shift_eq.
  rewrite (rn_with c F G _ _ (enc p ((X - Mn) * I / s))).
  2:{ apply (div_pow2_run p Hprime c Hc F kappa ds Hwk Hwd B1 B2 B6 ((X - Mn) * I) true). fold s. lia. }
  encp. rewrite run_bind, rn_rc; auto.
  2:{ apply rci_full; auto. rewrite pow2_add. change (pow2 1) with 2. lia. }
  rewrite run_bind, rn_rc; auto; [|apply rci_full; auto; lia].
  rewrite run_bind, rn_rc; auto. apply rci_full; auto; lia.
Qed.

Theorem ln_run Mn I Ys : let Qs := map (fun X => (X - Mn) * I / s) Xs in
  R kappa <= p -> R (ds + 1) <= p -> R nb <= p -> R (nb + 1) <= p -> R (mb + 1) <= p -> R wt <= p -> R wm <= p -> R wv <= p ->
  s * R (ds + 1) + R kappa <= p ->
  G 21%nat (map (enc p) Xs ++ map (enc p) gammas ++ map (enc p) betas ++ [enc p s]) (n + 2) = Some (map (enc p) Ys ++ [enc p Mn; enc p I]) ->
  length Ys = n -> 0 <= I < pow2 nb -> Z.abs (zsum Xs - nz * Mn) <= nz -> - pow2 nb <= Mn < pow2 nb ->
  zsum (map (fun Q => Q * Q) Qs) < 2 * (nz * s * s) ->
  (forall i, (i < n)%nat -> let X := nth i Xs 0 in let Y := nth i Ys 0 in let Q := nth i Qs 0 in
     - pow2 (nb - 1) <= Y < pow2 nb - pow2 (nb - 1) /\ Z.abs ((X - Mn) * I) < s * pow2 ds /\ - pow2 mb <= Q < pow2 mb /\
     Z.abs (Y * s - (Q * nth i gammas 0 + nth i betas 0)) <= tol) ->
  rn (layer_norm_lane p c kappa nb mb gammas betas (map (enc p) Xs)) = Some (map (enc p) Ys).
Proof.
  intros Qs B1 B2 B3 B4 B5 B6 B7 B8 B9 HG LY HI HMn HMb Hv Hall. pose proof (prime_ge_2 _ Hprime) as H2.
  unfold layer_norm_lane. rewrite map_length. fold n. rewrite Lg, Lb, Nat.eqb_refl. cbn [negb orb]. cbv zeta. fold s. fold tol.
  change (zn n) with nz. fold wm. fold wv. change (const p) with (enc p).
  rewrite run_bind, (rn_customn c F G 21 _ _ _ HG).
  2:{ rewrite app_length, map_length; cbn [length]; lia. }
  assert (Ef : firstn n (map (enc p) Ys ++ [enc p Mn; enc p I]) = map (enc p) Ys).
  { rewrite firstn_app, map_length, LY, Nat.sub_diag. cbn [firstn]. rewrite app_nil_r. apply firstn_all2. rewrite map_length. lia. }
  assert (E1 : nth n (map (enc p) Ys ++ [enc p Mn; enc p I]) 0 = enc p Mn).
  { rewrite app_nth2 by (rewrite map_length; lia). rewrite map_length, LY, Nat.sub_diag. reflexivity. }
  assert (E2 : nth (n + 1) (map (enc p) Ys ++ [enc p Mn; enc p I]) 0 = enc p I).
  { rewrite app_nth2 by (rewrite map_length; lia). rewrite map_length, LY. replace (n + 1 - n)%nat with 1%nat by lia. reflexivity. }
  rewrite Ef, E1, E2.
  rewrite run_bind, rn_rc; auto; [|apply rci_full; auto].
  rewrite fold_add_enc, Z.add_0_l, mul_enc, sub_enc, !add_enc.
  assert (Hn0 : 0 <= nz) by (unfold nz; lia).
  rewrite run_bind, rn_rc; auto.
  2:{ apply rci_full; auto. unfold wm, np2_bits. pose proof (bit_length_bound (2 * nz + 1 - 1) ltac:(lia)). lia. }
  rewrite run_bind, rn_rc; auto.
  2:{ apply rci_full; auto. rewrite pow2_add. change (pow2 1) with 2. lia. }
  rewrite run_bind.
  assert (Hgen : forall gs bs xs ys, length gs = length xs -> length bs = length xs -> length ys = length xs ->
    (forall i, (i < length xs)%nat -> let X := nth i xs 0 in let Y := nth i ys 0 in let Q := (X - Mn) * I / s in
     - pow2 (nb - 1) <= Y < pow2 nb - pow2 (nb - 1) /\ Z.abs ((X - Mn) * I) < s * pow2 ds /\ - pow2 mb <= Q < pow2 mb /\
     Z.abs (Y * s - (Q * nth i gs 0 + nth i bs 0)) <= tol) ->
    rn (mapM (fun t => ln_element p c kappa nb mb tol (enc p Mn) (enc p I) (fst t) (fst (snd t)) (snd (snd t)))
       (combine (combine gs bs) (combine (map (enc p) xs) (map (enc p) ys)))) = Some (map (fun X => enc p ((X - Mn) * I / s)) xs)).
  { clear Hall Hv HMn HG. intros gs bs xs. revert gs bs.
    induction xs as [|x xs IH]; intros [|g gs] [|b bs] [|y ys] L1 L2 L3 Hall; cbn in L1, L2, L3; try discriminate; [reflexivity|].
    cbn [map combine mapM fst snd]. destruct (Hall 0%nat ltac:(cbn; lia)) as (A1 & A2 & A3 & A4). cbn [nth] in A1, A2, A3, A4.
    rewrite run_bind, ln_element_run; auto. rewrite run_bind, IH; auto.
    intros i Hi. apply (Hall (S i)). cbn. lia. }
  rewrite (Hgen gammas betas Xs Ys); auto.
  2:{ intros i Hi. specialize (Hall i Hi). cbv zeta in Hall |- *.
      assert (En : nth i Qs 0 = (nth i Xs 0 - Mn) * I / s).
      { unfold Qs. rewrite (nth_indep (map _ _) 0 ((fun X => (X - Mn) * I / s) 0)) by (rewrite map_length; auto). exact (map_nth (fun X => (X - Mn) * I / s) Xs 0 i). }
      rewrite En in Hall. exact Hall. }
  assert (Es : fold_left (add p) (map (fun q => mul p q q) (map (fun X => enc p ((X - Mn) * I / s)) Xs)) (enc p 0) = enc p (zsum (map (fun Q => Q * Q) Qs))).
  { rewrite map_map. rewrite (map_ext _ (fun X => enc p (((X - Mn) * I / s) * ((X - Mn) * I / s)))) by (intros; apply mul_enc).
    rewrite <- (map_map (fun X => ((X - Mn) * I / s) * ((X - Mn) * I / s)) (enc p)), fold_add_enc. f_equal. unfold Qs. rewrite map_map. lia. }
  rewrite Es, sub_enc, add_enc, run_bind, rn_rc; auto.
  replace (zsum (map (fun Q => Q * Q) Qs) - nz * s * s + nz * s * s) with (zsum (map (fun Q => Q * Q) Qs)) by lia.
  apply rci_full; auto.
  assert (0 <= zsum (map (fun Q => Q * Q) Qs)).
  { clear. induction Qs as [|Q l IH]; [cbn; lia|]. cbn [map zsum fold_right]. fold (zsum (map (fun Q => Q * Q) l)). pose proof (Z.square_nonneg Q). lia. }
  split; [auto|]. unfold wv, np2_bits. pose proof (bit_length_bound (2 * (nz * s * s) - 1) ltac:(lia)). lia.
Qed.
End Lane.
End L.

Lemma np2_bits_log2_up v : 1 <= v -> np2_bits v = Z.to_nat (Z.log2_up v).
Proof.
  intros Hv. unfold np2_bits, bit_length, Z.log2_up. destruct (Z.eqb_spec (v - 1) 0) as [E|E].
  - replace v with 1 by lia. reflexivity.
  - destruct (Z.compare_spec 1 v); try lia. rewrite <- Z.sub_1_r. f_equal.
Qed.
