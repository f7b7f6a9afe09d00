(** Softmax. *)
From Coq Require Import ZArith List Bool Znumtheory Lia.
From Verif Require Import Spec.Numbers Spec.HonestProver Model.Builder Model.Gadgets Model.Layers Model.Activations
  Proofs.Builder Proofs.RangeCheck Proofs.Gadgets Proofs.Division Proofs.Layers Proofs.Layers2 Proofs.ExpLookup
  Proofs.HonestRun Proofs.Activations1 Proofs.Activations2 Proofs.Activations3.
Import ListNotations.
Local Open Scope Z_scope.

Lemma soft_arith s n S Q rs r t Y K : 0 < s -> 1 <= n -> 1 <= K -> 0 <= Q <= S -> s * s <= S ->
  2 * n * K <= s -> Z.abs rs <= n * (K * s) -> Z.abs r <= K * s -> Z.abs t <= K * n * s ->
  Y * (S - rs) = s * (Q - r - n * s + t) ->
  Z.abs (Y * S - s * Q) <= n * (8 * K + 1) * (s * s).
Proof.
  intros Hs Hn HK HQ HS HnK Hrs Hr Ht He.
  assert (A1 : n * (K * s) * 2 <= S).
  { replace (n * (K * s) * 2) with (2 * n * K * s) by ring. assert (2 * n * K * s <= s * s) by (apply Z.mul_le_mono_nonneg_r; lia). lia. }
  assert (A3 : n <= n * K) by (assert (n * 1 <= n * K) by (apply Z.mul_le_mono_nonneg_l; lia); lia).
  assert (A2 : K * s + n * s + K * n * s <= 2 * S).
  { assert (K <= n * K) by (assert (1 * K <= n * K) by (apply Z.mul_le_mono_nonneg_r; lia); lia).
    replace (K * s + n * s + K * n * s) with ((K + n + K * n) * s) by ring.
    assert ((K + n + K * n) * s <= (2 * s) * s) by (apply Z.mul_le_mono_nonneg_r; lia). lia. }
  assert (B : Z.abs Y <= 6 * s).
  { assert (C : Z.abs Y * (S - rs) = s * Z.abs (Q - r - n * s + t)).
    { rewrite <- (Z.abs_eq (S - rs)) by lia. rewrite <- (Z.abs_eq s) at 1 by lia. rewrite <- !Z.abs_mul. f_equal. exact He. }
    assert (D : s * Z.abs (Q - r - n * s + t) <= s * (3 * S)).
    { apply Z.mul_le_mono_nonneg_l; [lia|]. assert (0 <= n * s) by (apply Z.mul_nonneg_nonneg; lia). lia. }
    assert (D2 : Z.abs Y * S <= Z.abs Y * (2 * (S - rs))) by (apply Z.mul_le_mono_nonneg_l; lia).
    destruct (Z_le_gt_dec (Z.abs Y) (6 * s)) as [|Hgt]; [auto|exfalso].
    assert (D3 : (6 * s + 1) * S <= Z.abs Y * S) by (apply Z.mul_le_mono_nonneg_r; [nia|lia]).
    assert (0 < S) by nia. lia. }
  replace (Y * S - s * Q) with (Y * rs + s * (- r - n * s + t)) by lia.
  assert (F1 : Z.abs (Y * rs) <= 6 * s * (n * (K * s))) by (apply abs_mul_le; auto).
  assert (F2 : Z.abs (s * (- r - n * s + t)) <= s * (K * s + n * s + K * n * s)).
  { apply abs_mul_le; [lia|]. assert (0 <= n * s) by (apply Z.mul_nonneg_nonneg; lia). lia. }
  assert (F3 : K * (s * s) <= n * K * (s * s)).
  { apply Z.mul_le_mono_nonneg_r; [apply Z.mul_nonneg_nonneg; lia|]. assert (1 * K <= n * K) by (apply Z.mul_le_mono_nonneg_r; lia). lia. }
  replace (n * (8 * K + 1) * (s * s)) with (6 * s * (n * (K * s)) + (n * K * (s * s) + s * (n * s + K * n * s))) by ring.
  replace (s * (K * s + n * s + K * n * s)) with (K * (s * s) + s * (n * s + K * n * s)) in F2 by ring. lia.
Qed.

Lemma fold_sum p es acc0 : fold_left (add p) es (enc p acc0) = enc p (acc0 + zsum es).
Proof.
  revert acc0. induction es as [|e es IH]; intros acc0; cbn [fold_left].
  - cbn. f_equal. lia.
  - unfold add at 2. unfold enc at 1. rewrite Zplus_mod_idemp_l. change ((acc0 + e) mod p) with (enc p (acc0 + e)). rewrite IH. cbn [zsum fold_right]. f_equal. unfold zsum. lia.
Qed.

Lemma soft_diff p Y Z e s k : add p (sub p (mul p (enc p Y) (enc p Z)) (mul p e (const p s))) (const p k) = enc p (Y * Z - e * s + k).
Proof.
  change (const p) with (enc p). assert (H : mul p e (enc p s) = enc p (e * s)) by (unfold mul, enc; apply Zmult_mod_idemp_r).
  rewrite H, mul_enc, sub_enc, add_enc. reflexivity.
Qed.

Lemma firstn_S_nth (l : list Z) : forall k, (k < length l)%nat -> firstn (S k) l = firstn k l ++ [nth k l 0].
Proof.
  induction l as [|y l IH]; intros k Hk; cbn in Hk; [lia|].
  destruct k as [|k]; [destruct l; reflexivity|]. cbn [firstn nth app]. f_equal. apply IH. lia.
Qed.

Lemma near_in D s es Ns e N : Forall2 (fun e N => 2 * Z.abs (N * D - e * s) <= D) es Ns -> In (N, e) (combine Ns es) ->
  In e es /\ 2 * Z.abs (N * D - e * s) <= D.
Proof.
  induction 1 as [|e' N' l l' H1 H2 IH]; intros Hin; [destruct Hin|]. cbn in Hin. destruct Hin as [Hin|Hin].
  - inversion Hin; subst. split; [left; auto|auto].
  - destruct (IH Hin). split; [right; auto|auto].
Qed.

Section E.
Variable p : Z.
Hypothesis Hprime : prime p.
Variable c : nat.
Hypothesis Hc : (0 < c)%nat.
Variables tb kappa : nat.
Variable E : Z -> Z.
Let s := pow2 kappa.
Notation F := (exp_tables p tb E).
Variable G : nat -> list Z -> nat -> option (list Z).
Notation acc := (accepts p (table_rows c F)).
Notation rn := (run (honest_with G) (table_rowsb c F)).
Notation P := (exp_product tb E).
Hypothesis Htb : (2 <= tb)%nat.
Hypothesis Hwc : width_ok c (tb / 2).
Hypothesis Hws : width_ok c (kappa + 1).
Hypothesis Hp1 : 2 * pow2 tb <= p.
Hypothesis Hp2 : pow2 (rounded c (tb / 2)) <= p.
Hypothesis Hp3 : pow2 (rounded c (kappa + 1)) <= p.
Hypothesis Hwd : width_ok c (tb - 1).
Hypothesis Hpd : pow2 (rounded c (tb - 1)) <= p.

Ltac encp := change (const p) with (enc p) in *; repeat (rewrite add_enc || rewrite sub_enc || rewrite mul_enc).

(** The maximum: an element of the lane within range of all others. *)
Lemma softmax_max_acc m X Xs u : 0 <= m < p ->
  (forall A B, In A (X :: Xs) -> In B (X :: Xs) -> Z.abs (A - B) + pow2 (rounded c (tb - 1)) < p) ->
  acc (softmax_max p c (tb - 1) m (map (enc p) (X :: Xs))) u ->
  exists M, In M (X :: Xs) /\ m = enc p M /\ forall A, In A (X :: Xs) -> rci c (tb - 1) (M - A).
Proof.
  intros Hm Hb H. pose proof (prime_ge_2 _ Hprime) as H2. cbn [map softmax_max] in H.
  a_rc H H1. apply accepts_bind in H as (prod & Hd & H). apply accepts_assert_zero in H.
  assert (Ew : (tb - 1 = tb - 2 + 1)%nat) by lia. rewrite Ew in Hd. apply delta_loop_acc in Hd as (Hd & ->). rewrite <- Ew in Hd.
  assert (Hf : Forall (fun x => acc (range_check p c (sub p m x) (tb - 1)) tt) (map (enc p) (X :: Xs))) by (constructor; auto).
  assert (Hex : exists M, In M (X :: Xs) /\ sub p m (enc p M) = 0).
  { assert (Hmod : ((c - 1 + 1) mod c = 0)%nat) by (replace (c - 1 + 1)%nat with c by lia; apply Nat.mod_same; lia).
    apply (prod_zero p Hprime c Hc (c - 1) Hmod (fun x => sub p m x)) in H; [|apply enc_range; lia|intros; apply enc_range; lia].
    destruct H as [H|(x & Hx & H)].
    - exists X. split; [left; auto|auto].
    - apply in_map_iff in Hx as (M & <- & HM). exists M. split; [right; auto|auto]. }
  destruct Hex as (M & HM & EM). exists M. split; [auto|].
  assert (Em : m = enc p M).
  { rewrite <- (enc_id p m Hm), sub_enc in EM. rewrite <- (enc_id p m Hm). unfold enc in *.
    apply Z.mod_divide in EM; [|lia]. destruct EM as (k & Hk). replace m with (M + k * p) by lia. apply Z_mod_plus_full. }
  split; [auto|]. intros A HA. rewrite Forall_forall in Hf. specialize (Hf (enc p A) (in_map _ _ _ HA)). cbn beta in Hf.
  rewrite Em, sub_enc in Hf. pose proof (Hb M A HM HA). pose proof (pow2_pos (tb - 1)). pose proof (pow2_le _ _ (rounded_ge c (tb - 1))).
  apply rc_int in Hf; auto. lia.
Qed.

Lemma exps_acc M Xs es : (forall A, In A Xs -> Z.abs (A - M) + pow2 tb < p) ->
  Forall2 (fun x e => acc (verify_exp p c tb (pow2 kappa) (sub p x (enc p M))) e) (map (enc p) Xs) es ->
  exists rs, length rs = length Xs /\ length es = length Xs /\ Forall (fun A => exp_in tb (A - M)) Xs /\ Forall (rci c (kappa + 1)) rs /\
    (forall i, (i < length Xs)%nat -> enc p (s * nth i es 0 + nth i rs 0) = enc p (P (nth i Xs 0 - M))) /\
    enc p (s * zsum es + zsum rs) = enc p (zsum (map (fun A => P (A - M)) Xs)).
Proof.
  revert es. induction Xs as [|X Xs IH]; intros es Hb H; inversion H as [|? e ? es' H1 H2]; subst.
  - exists []. split; [auto|]. split; [auto|]. split; [auto|]. split; [auto|]. split; [cbn; intros; lia|]. cbn [zsum fold_right map]. f_equal. lia.
  - rewrite sub_enc in H1. apply (exp_acc p Hprime c Hc tb kappa E Htb Hwc Hws Hp1 Hp2 Hp3) in H1; [|apply Hb; left; auto].
    destruct H1 as (Hin & He & r & Hr & Er). fold s in Er.
    apply IH in H2; [|intros; apply Hb; right; auto]. destruct H2 as (rs & L1 & L2 & F1 & F2 & Hi & Hs).
    exists (r :: rs). cbn [length]. rewrite L1, L2. split; [auto|]. split; [auto|]. split; [constructor; auto|]. split; [constructor; auto|].
    split.
    + intros [|i] Hlt; cbn [nth]; [auto|]. apply Hi. lia.
    + cbn [zsum fold_right map]. fold (zsum es'). fold (zsum rs). fold (zsum (map (fun A => P (A - M)) Xs)).
      replace (s * (e + zsum es') + (r + zsum rs)) with ((s * e + r) + (s * zsum es' + zsum rs)) by ring.
      transitivity (add p (enc p (s * e + r)) (enc p (s * zsum es' + zsum rs))); [rewrite add_enc; reflexivity|].
      rewrite Er, Hs. apply add_enc.
Qed.

Section Lane.
Variable nb : nat.
Variable Xs : list Z.
Let n := length Xs.
Let nz := Z.of_nat n.
Let w2 := np2_bits (2 * (nz * s)).
Let w3 := np2_bits (2 * nz + 1).
Hypothesis Hwn : width_ok c nb.
Hypothesis Hw2 : width_ok c w2.
Hypothesis Hw3 : width_ok c w3.
Let Rn := pow2 (rounded c nb).
Let R1 := pow2 (rounded c (kappa + 1)).
Let R2 := pow2 (rounded c w2).
Let R3 := pow2 (rounded c w3).
Hypothesis Hrn : Rn <= p.
Hypothesis Hr2 : R2 <= p.
Hypothesis Hr3 : nz * Rn + s + nz + 2 * R3 < p.
Hypothesis Hs2n : s + 2 * Rn <= p.
Hypothesis Hb : forall A B, In A Xs -> In B Xs -> Z.abs (A - B) + pow2 tb + pow2 (rounded c (tb - 1)) < p.

(** What is accepted, as a relation on integers. *)
Theorem softmax_rel ys : n <> 0%nat ->
  (forall M, In M Xs -> (forall A, In A Xs -> exp_in tb (A - M)) -> let S := zsum (map (fun A => P (A - M)) Xs) in
     (forall A, In A Xs -> 0 <= P (A - M) <= S) /\ 0 <= S /\
     2 * (Rn * (S + nz * R1) + s * (S + R1 + nz * s + R2)) < p) ->
  acc (softmax_lane p c kappa nb tb (map (enc p) Xs)) ys ->
  exists M Ys rs ts, In M Xs /\ (forall A, In A Xs -> rci c (tb - 1) (M - A) /\ exp_in tb (A - M)) /\
    ys = map (enc p) Ys /\ length Ys = n /\ length rs = n /\ length ts = n /\
    Forall (fun Y => rci c nb Y /\ rci c nb (s - Y)) Ys /\ rci c w3 (zsum Ys - s + nz) /\ Forall (rci c (kappa + 1)) rs /\ Forall (rci c w2) ts /\
    (forall i, (i < n)%nat ->
       nth i Ys 0 * (zsum (map (fun A => P (A - M)) Xs) - zsum rs) =
       s * (P (nth i Xs 0 - M) - nth i rs 0 - nz * s + nth i ts 0)).
Proof.
  intros Hn HS H. pose proof (prime_ge_2 _ Hprime) as H2.
  destruct (ex_s p c Hc tb kappa Htb Hp3) as (P1 & P2 & P3 & P4). fold s in P1, P2.
  unfold softmax_lane in H. rewrite map_length in H. fold n in H.
  destruct (Nat.eqb_spec n 0) as [E0|E0]; [contradiction|]. cbv zeta in H.
  apply accepts_bind in H as (out & Ho & H). apply accepts_hintn in Ho as (Lo & Fo). rewrite Forall_forall in Fo.
  assert (Hm : 0 <= nth n out 0 < p) by (apply Fo, nth_In; lia).
  apply accepts_bind in H as (u & Hmax & H).
  assert (EX : exists X Xs', Xs = X :: Xs').
  { assert (Hl : length Xs <> 0%nat) by exact Hn. destruct Xs as [|X Xs']; [cbn in Hl; congruence|eauto]. }
  destruct EX as (X & Xs' & EX).
  assert (Hmax' : exists M, In M Xs /\ nth n out 0 = enc p M /\ forall A, In A Xs -> rci c (tb - 1) (M - A)).
  { rewrite EX in Hmax |- *. apply softmax_max_acc in Hmax; auto. intros A B HA HB. rewrite <- EX in HA, HB.
    pose proof (Hb A B HA HB). pose proof (pow2_pos tb). lia. }
  clear Hmax. destruct Hmax' as (M & HM & Em & Hrng). rewrite Em in H.
  apply accepts_bind in H as (es & Hes & H). apply accepts_mapM in Hes.
  apply exps_acc in Hes.
  2:{ intros A HA. pose proof (Hb A M HA HM). pose proof (pow2_pos (rounded c (tb - 1))). lia. }
  destruct Hes as (rs & Lr & Le & Hin & Hrs & Hei & Hsum). fold n in Lr, Le.
  rewrite Forall_forall in Hin. destruct (HS M HM Hin) as (HP & HS0 & HB). set (S := zsum (map (fun A => P (A - M)) Xs)) in *. clear HS.
  a_rc H Hout. a_rc H Hsm. cbn in H. subst ys.
  apply accepts_forM in Hout. rewrite Forall_forall in Hout.
  change (zn n) with nz in Hsm. fold w3 in Hsm. set (ys := firstn n out) in *.
  assert (Ly : length ys = n) by (unfold ys; rewrite firstn_length; lia).
  assert (Fy : forall y, In y ys -> 0 <= y < p).
  { intros y Hy. apply Fo. unfold ys in Hy. rewrite <- (firstn_skipn n out). apply in_or_app. auto. }
  change (const p 0) with (enc p 0) in Hout. rewrite fold_sum in Hout, Hsm. rewrite Z.add_0_l in Hout, Hsm.
  assert (Hrb : forall r, In r rs -> - R1 <= r <= R1).
  { intros r Hr. rewrite Forall_forall in Hrs. apply Hrs in Hr. unfold rci in Hr. fold R1 in Hr. pose proof (pow2_pos (kappa + 1)).
    pose proof (pow2_le _ _ (rounded_ge c (kappa + 1))) as Hq. fold R1 in Hq. lia. }
  pose proof (zsum_bounds _ _ _ Hrb) as Hrz. rewrite Lr in Hrz. fold nz in Hrz.
  assert (Each : forall i, (i < n)%nat -> exists Y t, nth i ys 0 = enc p Y /\ (rci c nb Y /\ rci c nb (s - Y)) /\ rci c w2 t /\
     Y * (S - zsum rs) = s * (P (nth i Xs 0 - M) - nth i rs 0 - nz * s + t)).
  { intros i Hi.
    assert (Hpair : In (nth i ys 0, nth i es 0) (combine ys es)).
    { rewrite <- combine_nth by lia. apply nth_In. rewrite combine_length. lia. }
    apply Hout in Hpair. cbn [fst snd] in Hpair. unfold softmax_out in Hpair. cbv zeta in Hpair. fold s in Hpair.
    change (zn n) with nz in Hpair. fold w2 in Hpair.
    a_rc Hpair Hy1. a_rc Hpair Hy2.
    assert (Hyi : In (nth i ys 0) ys) by (apply nth_In; lia).
    apply rc_of in Hy1; auto. destruct Hy1 as (Y & HY & EY). rewrite EY in Hpair, Hy2.
    assert (HYb : Z.abs Y <= Rn).
    { unfold rci in HY. fold Rn in HY. pose proof (pow2_pos nb). pose proof (pow2_le _ _ (rounded_ge c nb)) as Hq. fold Rn in Hq. lia. }
    change (const p s) with (enc p s) in Hy2. rewrite sub_enc in Hy2. apply rc_int in Hy2; auto.
    2:{ fold Rn. pose proof (pow2_pos nb). pose proof (pow2_le _ _ (rounded_ge c nb)) as Hq. fold Rn in Hq. lia. }
    apply rc_of in Hpair; auto; [|apply Z.mod_pos_bound; lia]. destruct Hpair as (t & Ht & Et).
    exists Y, t. split; [auto|]. split; [auto|]. split; [auto|].
    specialize (Hei i Hi). set (e := nth i es 0) in *. set (r := nth i rs 0) in *. set (Q := P (nth i Xs 0 - M)) in *.
    assert (HXi : In (nth i Xs 0) Xs) by (apply nth_In; auto).
    pose proof (HP _ HXi) as HQ. fold Q in HQ.
    assert (Hr : - R1 <= r <= R1) by (apply Hrb, nth_In; lia).
    assert (Htb' : Z.abs t <= R2).
    { unfold rci in Ht. fold R2 in Ht. pose proof (pow2_pos w2). pose proof (pow2_le _ _ (rounded_ge c w2)) as Hq. fold R2 in Hq. lia. }
    assert (Ek : enc p (Y * (S - zsum rs)) = enc p (s * (Q - r - nz * s + t))).
    { assert (Et' : enc p (s * (Y * zsum es - e * s + nz * s)) = enc p (s * t)).
      { rewrite <- (mul_enc p s t), <- Et, soft_diff, mul_enc. reflexivity. }
      transitivity (enc p (Y * (s * zsum es + zsum rs) - Y * zsum rs)).
      - transitivity (sub p (mul p (enc p Y) (enc p S)) (enc p (Y * zsum rs))); [rewrite mul_enc, sub_enc; f_equal; lia|].
        rewrite <- Hsum. rewrite mul_enc, sub_enc. reflexivity.
      - transitivity (sub p (enc p (s * (Y * zsum es - e * s + nz * s) + s * (s * e + r))) (enc p (s * r + s * nz * s))); [rewrite sub_enc; f_equal; ring|].
        transitivity (sub p (enc p (s * t + s * Q)) (enc p (s * r + s * nz * s))); [|rewrite sub_enc; f_equal; ring].
        f_equal. rewrite <- (add_enc p (s * (Y * zsum es - e * s + nz * s))), <- (add_enc p (s * t)). rewrite Et'. f_equal.
        rewrite <- (mul_enc p s (s * e + r)), <- (mul_enc p s Q). rewrite Hei. reflexivity. }
    apply enc_inj in Ek; [exact Ek|lia|].
    assert (B1 : Z.abs (Y * (S - zsum rs)) <= Rn * (S + nz * R1)) by (apply abs_mul_le; lia).
    assert (B2 : Z.abs (s * (Q - r - nz * s + t)) <= s * (S + R1 + nz * s + R2)).
    { apply abs_mul_le; [lia|]. assert (0 <= nz * s) by (apply Z.mul_nonneg_nonneg; unfold nz; lia). lia. }
    lia. }
  assert (Build : exists Ys ts, ys = map (enc p) Ys /\ length Ys = n /\ length ts = n /\ Forall (fun Y => rci c nb Y /\ rci c nb (s - Y)) Ys /\ Forall (rci c w2) ts /\
     forall i, (i < n)%nat -> nth i Ys 0 * (S - zsum rs) = s * (P (nth i Xs 0 - M) - nth i rs 0 - nz * s + nth i ts 0)).
  { assert (Bk : forall k, (k <= n)%nat -> exists Ys ts, firstn k ys = map (enc p) Ys /\ length Ys = k /\ length ts = k /\ Forall (fun Y => rci c nb Y /\ rci c nb (s - Y)) Ys /\ Forall (rci c w2) ts /\
     forall i, (i < k)%nat -> nth i Ys 0 * (S - zsum rs) = s * (P (nth i Xs 0 - M) - nth i rs 0 - nz * s + nth i ts 0)).
    { induction k as [|k IH]; intros Hk.
      - exists [], []. repeat split; auto. intros; lia.
      - destruct IH as (Ys & ts & I1 & I2 & I3 & I4 & I5 & I6); [lia|]. destruct (Each k ltac:(lia)) as (Y & t & J1 & J2 & J3 & J4).
        exists (Ys ++ [Y]), (ts ++ [t]). rewrite !app_length. cbn [length]. split; [|split; [lia|split; [lia|split; [apply Forall_app; auto|split; [apply Forall_app; auto|]]]]].
        + rewrite map_app, <- I1. cbn [map]. rewrite <- J1.
          apply firstn_S_nth. lia.
        + intros i Hi. destruct (Nat.eq_dec i k) as [->|Hne].
          * rewrite !app_nth2 by lia. rewrite I2, I3, Nat.sub_diag. cbn [nth]. exact J4.
          * rewrite !app_nth1 by lia. apply I6. lia. }
    destruct (Bk n (Nat.le_refl _)) as (Ys & ts & I). rewrite firstn_all2 in I by lia. exists Ys, ts. exact I. }
  destruct Build as (Ys & ts & I1 & I2 & I3 & I4 & I5 & I6).
  exists M, Ys, rs, ts. split; [auto|]. split; [intros A HA; split; [apply Hrng; auto|apply Hin; auto]|].
  split; [auto|]. split; [auto|]. split; [auto|]. split; [auto|]. split; [auto|]. split; [|auto].
  assert (Ez : enc p (zsum ys) = enc p (zsum Ys)).
  { rewrite I1. clear. induction Ys as [|Y Ys IH]; [reflexivity|]. cbn [map zsum fold_right]. fold (zsum (map (enc p) Ys)). fold (zsum Ys).
    rewrite <- !add_enc, IH. f_equal. unfold enc. apply Zmod_mod. }
  rewrite Ez in Hsm. change (const p) with (enc p) in Hsm. rewrite sub_enc, add_enc in Hsm.
  apply rc_int in Hsm; auto.
  - fold R3. pose proof (pow2_pos w3). pose proof (pow2_le _ _ (rounded_ge c w3)) as Hq. fold R3 in Hq.
    assert (Hyb : forall Y, In Y Ys -> - Rn <= Y <= Rn).
    { intros Y HY. rewrite Forall_forall in I4. apply I4 in HY as (HY & _). unfold rci in HY. fold Rn in HY.
      pose proof (pow2_pos nb). pose proof (pow2_le _ _ (rounded_ge c nb)) as Hq'. fold Rn in Hq'. lia. }
    apply zsum_bounds in Hyb. rewrite I2 in Hyb. fold nz in Hyb. lia.
  - fold R3. pose proof (pow2_pos (rounded c w3)) as Hq. fold R3 in Hq. assert (0 <= nz) by (unfold nz; lia).
    assert (0 <= nz * Rn) by (apply Z.mul_nonneg_nonneg; auto; apply Z.lt_le_incl, pow2_pos). lia.
Qed.

(** Accepted outputs are the softmax. *)
Theorem softmax_sound ys K B : n <> 0%nat -> E 0 = s ->
  (forall k, exp_in tb k -> 0 <= P k <= B) ->
  2 * (Rn * (nz * B + nz * R1) + s * (nz * B + R1 + nz * s + R2)) < p ->
  R1 <= K * s -> R2 <= K * nz * s -> 2 * nz * K <= s ->
  acc (softmax_lane p c kappa nb tb (map (enc p) Xs)) ys ->
  exists M Ys, In M Xs /\ ys = map (enc p) Ys /\ length Ys = n /\
    Forall (fun Y => pow2 nb - Rn <= Y <= s + (Rn - pow2 nb)) Ys /\ Z.abs (zsum Ys - s) <= R3 + nz /\
    s * s <= zsum (map (fun A => P (A - M)) Xs) /\
    forall i, (i < n)%nat ->
      Z.abs (nth i Ys 0 * zsum (map (fun A => P (A - M)) Xs) - s * P (nth i Xs 0 - M)) <= nz * (8 * K + 1) * (s * s).
Proof.
  intros Hn HE HP HB HK1 HK2 HK H. pose proof (prime_ge_2 _ Hprime) as H2.
  destruct (ex_s p c Hc tb kappa Htb Hp3) as (P1 & P2 & P3 & P4). fold s in P1, P2.
  assert (Hz : forall M, (forall A, In A Xs -> exp_in tb (A - M)) -> let S := zsum (map (fun A => P (A - M)) Xs) in
     (forall A, In A Xs -> 0 <= P (A - M) <= S) /\ 0 <= S <= nz * B).
  { intros M HM S. unfold S, nz, n. clear - HM HP. induction Xs as [|X l IH]; [cbn; split; [intros A []|lia]|].
    destruct IH as (I1 & I2); [intros; apply HM; right; auto|]. cbn [map zsum fold_right length]. fold (zsum (map (fun A => P (A - M)) l)).
    pose proof (HP _ (HM X (or_introl eq_refl))). rewrite Nat2Z.inj_succ. split; [|lia].
    intros A [<-|HA]; [lia|]. specialize (I1 A HA). lia. }
  assert (Hn1 : 1 <= nz) by (unfold nz; lia).
  apply softmax_rel in H; auto.
  - destruct H as (M & Ys & rs & ts & HM & Hall & Ey & L1 & L2 & L3 & FY & Hsm & Fr & Ft & Heq).
    exists M, Ys. split; [auto|]. split; [auto|]. split; [auto|]. split; [|split; [|split]].
    + eapply Forall_impl; [|exact FY]. cbn beta. unfold rci. fold Rn. intros Y HY. lia.
    + unfold rci in Hsm. fold R3 in Hsm. pose proof (pow2_pos w3). pose proof (pow2_le _ _ (rounded_ge c w3)) as Hq. fold R3 in Hq. lia.
    + destruct (Hz M (fun A HA => proj2 (Hall A HA))) as (Z1 & _). pose proof (Z1 M HM) as HS0.
      unfold exp_product at 2 in HS0. rewrite Z.sub_diag, Zdiv_0_l, Zmod_0_l, Z.mul_0_l, HE in HS0. lia.
    + intros i Hi. destruct (Hz M (fun A HA => proj2 (Hall A HA))) as (Z1 & Z2). set (S := zsum (map (fun A => P (A - M)) Xs)) in *.
      assert (HXi : In (nth i Xs 0) Xs) by (apply nth_In; auto).
      assert (E0 : P (M - M) = s * s).
      { unfold exp_product. rewrite Z.sub_diag, Zdiv_0_l, Zmod_0_l, Z.mul_0_l, HE. reflexivity. }
      pose proof (Z1 M HM) as HS0. rewrite E0 in HS0.
      pose proof (pow2_pos (kappa + 1)) as Q1. pose proof (pow2_le _ _ (rounded_ge c (kappa + 1))) as Q2. fold R1 in Q2.
      pose proof (pow2_pos w2) as Q3. pose proof (pow2_le _ _ (rounded_ge c w2)) as Q4. fold R2 in Q4.
      assert (HrB : forall r, In r rs -> - R1 <= r <= R1).
      { intros r Hr. rewrite Forall_forall in Fr. apply Fr in Hr. unfold rci in Hr. fold R1 in Hr. lia. }
      pose proof (zsum_bounds _ _ _ HrB) as HrS. rewrite L2 in HrS. fold nz in HrS.
      assert (Hr : - R1 <= nth i rs 0 <= R1) by (apply HrB, nth_In; lia).
      assert (Ht : Z.abs (nth i ts 0) <= R2).
      { rewrite Forall_forall in Ft. assert (Hti : In (nth i ts 0) ts) by (apply nth_In; lia). apply Ft in Hti. unfold rci in Hti. fold R2 in Hti. lia. }
      assert (HK0 : 1 <= K).
      { destruct (Z_le_gt_dec 1 K); [auto|exfalso]. assert (K * s <= 0 * s) by (apply Z.mul_le_mono_nonneg_r; lia). lia. }
      assert (HnR : nz * R1 <= nz * (K * s)) by (apply Z.mul_le_mono_nonneg_l; lia).
      apply (soft_arith s nz S (P (nth i Xs 0 - M)) (zsum rs) (nth i rs 0) (nth i ts 0)); auto; lia.
  - intros M HM Hall S. destruct (Hz M Hall) as (Z1 & Z2). split; [auto|]. split; [unfold S; lia|].
    fold S in Z2.
    assert (0 < Rn) by apply pow2_pos.
    assert (Rn * (S + nz * R1) <= Rn * (nz * B + nz * R1)) by (apply Z.mul_le_mono_nonneg_l; lia).
    assert (s * (S + R1 + nz * s + R2) <= s * (nz * B + R1 + nz * s + R2)) by (apply Z.mul_le_mono_nonneg_l; lia). lia.
Qed.

(** The honest prover. *)
Lemma run_delta M l prod : (forall A, In A l -> rci c (tb - 1) (M - A)) ->
  rn (delta_loop p c (fun x => sub p (enc p M) x) (tb - 1) prod (map (enc p) l)) =
  Some (fold_left (fun q x => mul p q (sub p (enc p M) x)) (map (enc p) l) prod).
Proof.
  revert prod. induction l as [|A l IH]; intros prod H; [reflexivity|]. cbn [map delta_loop fold_left].
  rewrite run_bind. rewrite sub_enc at 1. rewrite rn_rc; auto; [|apply H; left; auto]. apply IH. intros; apply H; right; auto.
Qed.

Lemma run_forM A (f : A -> prog unit) l : (forall a, In a l -> rn (f a) = Some tt) -> rn (forM f l) = Some tt.
Proof.
  induction l as [|a l IH]; intros H; [reflexivity|]. cbn [forM]. rewrite run_bind, H by (left; auto). apply IH. intros; apply H; right; auto.
Qed.

Lemma run_mapM_map (f : Z -> prog Z) (h g : Z -> Z) l : (forall a, In a l -> rn (f (h a)) = Some (g a)) ->
  rn (mapM f (map h l)) = Some (map g l).
Proof.
  induction l as [|a l IH]; intros H; [reflexivity|]. cbn [map mapM]. rewrite run_bind, H by (left; auto).
  rewrite run_bind, IH by (intros; apply H; right; auto). reflexivity.
Qed.

Lemma near_sum es Ns D : Forall2 (fun e N => 2 * Z.abs (N * D - e * s) <= D) es Ns ->
  2 * Z.abs (zsum Ns * D - zsum es * s) <= Z.of_nat (length Ns) * D.
Proof.
  induction 1 as [|e N es Ns H1 H2 IH]; [cbn; lia|]. cbn [zsum fold_right length]. fold (zsum Ns) (zsum es). rewrite Nat2Z.inj_succ. lia.
Qed.

Theorem softmax_run M Ns rest : n <> 0%nat -> E 0 = s -> (kappa < nb)%nat ->
  In M Xs -> (forall A, In A Xs -> A <= M /\ M - A < pow2 (tb - 1)) ->
  (forall A, In A Xs -> 0 <= P (A - M) <= s * s) -> s * s < p ->
  (forall k, - pow2 (tb - 1) <= k < pow2 (tb - 1) -> G 1 [enc p k; const p (pow2 kappa)] 1 = Some [enc p (E k)]) ->
  G 20%nat (map (enc p) Xs ++ [enc p s]) (2 * n + 1) = Some (map (enc p) Ns ++ enc p M :: rest) -> length rest = n ->
  Forall2 (fun A N => 2 * Z.abs (N * zsum (map (fun A => P (A - M) / s) Xs) - P (A - M) / s * s) <= zsum (map (fun A => P (A - M) / s) Xs)) Xs Ns ->
  rn (softmax_lane p c kappa nb tb (map (enc p) Xs)) = Some (map (enc p) Ns).
Proof.
  intros Hn HE Hkn HM Hmax HP Hss HG1 HG Lr HN. pose proof (prime_ge_2 _ Hprime) as H2.
  destruct (ex_s p c Hc tb kappa Htb Hp3) as (P1 & P2 & P3 & P4). fold s in P1, P2.
  pose proof (pow2_lt kappa nb Hkn) as Hs. fold s in Hs.
  set (es := map (fun A => P (A - M) / s) Xs) in *. set (D := zsum es) in *.
  assert (Ln : length Ns = n) by (unfold n; clear - HN; induction HN; cbn [length]; congruence).
  assert (He : forall e, In e es -> 0 <= e <= s).
  { intros e He. unfold es in He. apply in_map_iff in He as (A & <- & HA). specialize (HP A HA). split; [apply Z.div_pos; lia|].
    apply Z.div_le_upper_bound; lia. }
  assert (HeD : (forall e, In e es -> e <= D) /\ 0 <= D <= nz * s).
  { unfold D, nz. replace n with (length es) by (unfold es; apply map_length). clear - He P1.
    induction es as [|e l IH]; [cbn; split; [intros e []|lia]|].
    destruct IH as (I1 & I2); [intros; apply He; right; auto|]. cbn [zsum fold_right length]. fold (zsum l).
    pose proof (He e (or_introl eq_refl)). rewrite Nat2Z.inj_succ. split; [|lia]. intros x [<-|Hx]; [lia|]. specialize (I1 x Hx). lia. }
  destruct HeD as (HeD & HD0 & HD1).
  assert (HDs : s <= D).
  { apply HeD. unfold es. apply in_map_iff. exists M. split; [|auto]. unfold exp_product. rewrite Z.sub_diag, Zdiv_0_l, Zmod_0_l, Z.mul_0_l, HE. apply Z.div_mul. lia. }
  assert (HNe : Forall2 (fun e N => 2 * Z.abs (N * D - e * s) <= D) es Ns).
  { unfold es. clear - HN. revert HN. generalize D as D0. intros D0 HN. induction HN; [constructor|]. cbn [map]. constructor; auto. }
  assert (HNr : forall e N, In (N, e) (combine Ns es) -> In e es /\ 0 <= N <= s /\ 2 * Z.abs (N * D - e * s) <= D).
  { clear - HNe He HeD HDs P1. intros e N Hin.
    assert (G : In e es /\ 2 * Z.abs (N * D - e * s) <= D).
    { exact (near_in D s es Ns e N HNe Hin). }
    destruct G as (G1 & G2). split; [auto|]. split; [|auto]. specialize (He e G1). specialize (HeD e G1).
    assert (e * s <= D * s) by (apply Z.mul_le_mono_nonneg_r; lia). assert (0 <= e * s) by (apply Z.mul_nonneg_nonneg; lia). split.
    - destruct (Z_le_gt_dec 0 N); [auto|exfalso]. assert (N * D <= (-1) * D) by (apply Z.mul_le_mono_nonneg_r; lia). lia.
    - destruct (Z_le_gt_dec N s); [auto|exfalso]. assert ((s + 1) * D <= N * D) by (apply Z.mul_le_mono_nonneg_r; lia). lia. }
  assert (Bw : forall v, 1 <= v -> v <= pow2 (np2_bits v)).
  { intros v Hv. unfold np2_bits. pose proof (bit_length_bound (v - 1) ltac:(lia)). lia. }
  assert (Hn1 : 1 <= nz) by (unfold nz; lia).
  unfold softmax_lane. rewrite map_length. fold n. destruct (Nat.eqb_spec n 0) as [E0|E0]; [contradiction|]. cbv zeta. fold s.
  change (const p s) with (enc p s).
  rewrite run_bind, (rn_customn c F G 20 _ _ _ HG).
  2:{ rewrite app_length, map_length. cbn [length]. lia. }
  assert (Ef : firstn n (map (enc p) Ns ++ enc p M :: rest) = map (enc p) Ns).
  { rewrite firstn_app, map_length, Ln, Nat.sub_diag. cbn [firstn]. rewrite app_nil_r. apply firstn_all2. rewrite map_length. lia. }
  assert (En : nth n (map (enc p) Ns ++ enc p M :: rest) 0 = enc p M).
  { rewrite app_nth2 by (rewrite map_length; lia). rewrite map_length, Ln, Nat.sub_diag. reflexivity. }
  rewrite Ef, En.
  assert (Hrc : forall A, In A Xs -> rci c (tb - 1) (M - A)).
  { intros A HA. apply rci_full; auto. specialize (Hmax A HA). lia. }
  assert (Emax : rn (softmax_max p c (tb - 1) (enc p M) (map (enc p) Xs)) = Some tt).
  { destruct Xs as [|X l] eqn:EX; [destruct HM|]. cbn [map softmax_max]. rewrite run_bind. rewrite sub_enc at 1.
    rewrite rn_rc; auto; [|apply Hrc; left; auto]. rewrite run_bind, run_delta by (intros; apply Hrc; right; auto).
    rewrite (prod_zero_conv p (fun x => sub p (enc p M) x)); [reflexivity|].
    destruct HM as [->|HM]; [right|left; exists (enc p M); split; [apply in_map; auto|]]; rewrite sub_enc, Z.sub_diag; unfold enc; apply Zmod_0_l. }
  rewrite run_bind, Emax.
  rewrite run_bind.
  rewrite (run_mapM_map _ (enc p) (fun A => enc p (P (A - M) / s))).
  2:{ intros A HA. rewrite sub_enc. unfold s. apply (exp_run p Hprime c Hc tb kappa E G Htb Hwc Hws Hp1 Hp2 Hp3); auto.
      - unfold exp_in. specialize (Hmax A HA). lia.
      - specialize (HP A HA). lia. }
  replace (map (fun A => enc p (P (A - M) / s)) Xs) with (map (enc p) es) by (unfold es; apply map_map).
  change (const p 0) with (enc p 0). rewrite !fold_add_enc, !Z.add_0_l. fold D.
  rewrite run_bind, run_forM.
  2:{ intros [y e] Hin. cbn [fst snd].
      assert (Hin' : exists N e', y = enc p N /\ e = enc p e' /\ In (N, e') (combine Ns es)).
      { clear - Hin. revert Hin. generalize es as l. induction Ns as [|N Ns IH]; intros [|e' l] Hin; cbn in Hin; try destruct Hin as [Hin|Hin]; try contradiction.
        - inversion Hin. exists N, e'. split; [auto|]. split; [auto|left; auto].
        - apply IH in Hin as (N0 & e0 & A1 & A2 & A3). exists N0, e0. split; [auto|]. split; [auto|right; auto]. }
      destruct Hin' as (N & e' & -> & -> & Hin'). apply HNr in Hin' as (Hi1 & Hi2 & Hi3).
      unfold softmax_out. cbv zeta. fold s. change (zn n) with nz. fold w2. change (const p) with (enc p).
      rewrite run_bind, rn_rc by (auto; apply rci_full; auto; lia). rewrite sub_enc at 1.
      rewrite run_bind, rn_rc by (auto; apply rci_full; auto; lia).
      rewrite !mul_enc, sub_enc, add_enc. apply rn_rc; auto. apply rci_full; auto.
      pose proof (Bw (2 * (nz * s)) ltac:(assert (1 * s <= nz * s) by (apply Z.mul_le_mono_nonneg_r; lia); lia)) as Hw. fold w2 in Hw. lia. }
  change (zn n) with nz. fold w3. change (const p) with (enc p). rewrite sub_enc, add_enc.
  pose proof (near_sum _ _ _ HNe) as Hsum. rewrite Ln in Hsum. fold nz in Hsum. fold D in Hsum.
  rewrite run_bind, rn_rc; auto.
  - pose proof (pow2_pos (rounded c w3)) as Hq. fold R3 in Hq. fold R3. assert (0 <= nz * Rn) by (apply Z.mul_nonneg_nonneg; [lia|]; apply Z.lt_le_incl, pow2_pos). lia.
  - apply rci_full; auto. pose proof (Bw (2 * nz + 1) ltac:(lia)) as Hw. fold w3 in Hw.
    assert (Z.abs (zsum Ns - s) <= nz).
    { destruct (Z_le_gt_dec (Z.abs (zsum Ns - s)) nz) as [|Hgt]; [auto|exfalso].
      assert (Hm : Z.abs (zsum Ns - s) * D = Z.abs (zsum Ns * D - D * s)) by (rewrite <- (Z.abs_eq D) at 1 by lia; rewrite <- Z.abs_mul; f_equal; ring).
      assert ((nz + 1) * D <= Z.abs (zsum Ns - s) * D) by (apply Z.mul_le_mono_nonneg_r; lia).
      assert (0 <= nz * D) by (apply Z.mul_nonneg_nonneg; lia). lia. }
    lia.
Qed.
End Lane.
End E.
