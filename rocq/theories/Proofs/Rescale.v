From Coq Require Import ZArith List Bool Lia Znumtheory.
From Verif Require Import Spec.Numbers Model.Builder Model.Gadgets Proofs.Builder
  Proofs.RangeCheck Proofs.Gadgets Proofs.Division.
Import ListNotations.
Local Open Scope Z_scope.

Lemma bit_length_spec x : 0 < x -> 2 ^ (Z.of_nat (bit_length x) - 1) <= x < pow2 (bit_length x).
Proof.
  intros Hx. unfold bit_length. destruct (Z.eqb_spec x 0); [lia|].
  pose proof (Z.log2_nonneg x). pose proof (Z.log2_spec x Hx).
  unfold pow2, zn. rewrite Z2Nat.id by lia.
  replace (Z.log2 x + 1 - 1) with (Z.log2 x) by ring. rewrite <- Z.add_1_r in H0. exact H0.
Qed.

Section RS.
Variable p : Z.
Hypothesis Hprime : prime p.
Variable c : nat.
Hypothesis Hc : (0 < c)%nat.
Variable F : nat -> list (list Z).
Notation acc := (accepts p (table_rows c F)).
Notation rn := (run honest_hint (table_rowsb c F)).

(* ------------------------------------------------------------------ *)
(** ** Division by an arbitrary constant *)

Section AnyDivisor.
Variable d : Z.
Variable s : nat.
Hypothesis Hd3 : 2 < d.
Hypothesis Hnp : is_pow2 d = false.
Let k := bit_length (d - 1).
Hypothesis Hwk : width_ok c k.
Hypothesis Hws : width_ok c (s + 1).
Hypothesis Hbig : d * pow2 (rounded c (s + 1)) + 2 * pow2 (rounded c k) <= p.

Definition dc (x : Z) := div_const p c (enc p x) (const p d) d (const p (d * pow2 s)) s (const p (pow2 s)).

Lemma k_spec : pow2 k <= 2 * (d - 1) /\ d - 1 < pow2 k.
Proof.
  pose proof (bit_length_spec (d - 1) ltac:(lia)) as B. fold k in B.
  assert (0 < k)%nat. { destruct Hwk. lia. }
  split; [|lia].
  replace k with ((k - 1) + 1)%nat by lia. rewrite pow2_add. change (pow2 1) with 2.
  unfold pow2, zn. replace (Z.of_nat (k - 1)) with (Z.of_nat k - 1) by lia. lia.
Qed.

(** The remainders the two range checks let through. *)
Definition rem_ok (r : Z) : Prop :=
  if (k mod c =? 0)%nat then 0 <= r < d else d - pow2 k <= r < pow2 k.

Lemma bounds : 0 < d * pow2 (rounded c (s + 1)) /\ pow2 (rounded c (s+1)) <= p /\
  2 * pow2 (rounded c k) < p.
Proof.
  pose proof (pow2_pos (rounded c (s + 1))). pose proof (pow2_pos (rounded c k)). nia.
Qed.

Lemma rem_checks r : 0 <= r < p ->
  (acc (range_check p c r k) tt /\ acc (range_check p c (sub p (const p (d - 1)) r) k) tt) <->
  exists r', rem_ok r' /\ r = enc p r'.
Proof.
  intros Hr. pose proof bounds as (B0 & B1 & B2). pose proof k_spec as (K1 & K2).
  pose proof (pow2_pos k). pose proof (pow2_le _ _ (rounded_ge c k)).
  pose proof (prime_ge_2 _ Hprime).
  rewrite <- (enc_id p r Hr). change (const p) with (enc p).
  rewrite sub_enc, !rc_enc by (auto; lia). unfold rem_ok. split.
  - intros ((r1 & G1 & E1) & (r2 & G2 & E2)).
    exists r1. split; auto.
    assert (E : enc p (d - 1 - r) = enc p (d - 1 - r1)).
    { unfold enc in *. rewrite Zminus_mod, E1, <- Zminus_mod. reflexivity. }
    rewrite E in E2. apply enc_inj in E2; [|apply pp; auto|lia].
    destruct (Nat.eqb_spec (k mod c) 0) as [e|e].
    + rewrite (rounded_exact c k e) in *. lia.
    + lia.
  - intros (r' & Hr' & E).
    assert (E' : enc p (d - 1 - r) = enc p (d - 1 - r')).
    { unfold enc in *. rewrite Zminus_mod, E, <- Zminus_mod. reflexivity. }
    destruct (Nat.eqb_spec (k mod c) 0) as [e|e].
    + rewrite (rounded_exact c k e) in *. split; [exists r'|exists (d - 1 - r')]; split; auto; lia.
    + pose proof (rounded_lt c k Hc e) as L.
      assert (2 * pow2 k <= pow2 (rounded c k)) by (rewrite <- pow2_S; apply pow2_le; lia).
      split; [exists r'|exists (d - 1 - r')]; split; auto; lia.
Qed.

Theorem div_const_values x y :
  - (d * pow2 s) <= x < d * pow2 s ->
  acc (dc x) y <->
  exists j, rem_ok (x mod d - d * j) /\
            pow2 s - pow2 (rounded c (s + 1)) <= x / d + j < pow2 s /\ y = enc p (x / d + j).
Proof.
  intros Hx. pose proof bounds as (B0 & B1 & B2). pose proof k_spec as (K1 & K2).
  pose proof (pow2_pos k) as Pk. pose proof (pow2_le _ _ (rounded_ge c k)) as Lk.
  pose proof (pow2_le _ _ (rounded_ge c (s + 1))) as Ls. pose proof (pow2_pos s) as Ps.
  assert (Es : pow2 (s + 1) = 2 * pow2 s) by (rewrite pow2_add; change (pow2 1) with 2; lia).
  pose proof (Z.div_mod x d ltac:(lia)) as D.
  pose proof (Z.mod_pos_bound x d ltac:(lia)) as M.
  assert (Hrem : forall r, rem_ok r -> - pow2 k <= r < pow2 k).
  { intros r. unfold rem_ok. destruct (k mod c =? 0)%nat; lia. }
  unfold dc, div_const. destruct (Z.eqb_spec d 0); [lia|]. destruct (Z.eqb_spec d 1); [lia|].
  rewrite Hnp. cbv zeta. fold k. unfold unconstrained_int_div, unconstrained_mod.
  change (const p) with (enc p). rewrite !add_enc. split.
  - intros H. apply accepts_bind in H as (q & Hq & H). apply accepts_hint1 in Hq.
    apply accepts_bind in H as (r & Hr0 & H). apply accepts_hint1 in Hr0.
    apply accepts_bind in H as (u & He & H). apply accepts_assert_eq in He. destruct u.
    apply accepts_bind in H as (u & Hrr & H). destruct u.
    apply accepts_bind in H as (u & Hrr2 & H). destruct u.
    apply accepts_bind in H as (u & Hqq & H). destruct u. apply accepts_ret in H.
    destruct (proj1 (rem_checks r Hr0) (conj Hrr Hrr2)) as (r' & Hr' & Er).
    rewrite <- (enc_id p q Hq) in Hqq. apply rc_enc in Hqq; auto.
    destruct Hqq as (q' & Hq' & Eq). rewrite (enc_id p q Hq) in Eq.
    rewrite Eq, Er, mul_enc, add_enc in He.
    specialize (Hrem r' Hr').
    set (N := pow2 (rounded c (s + 1))) in *. set (S := pow2 s) in *. rewrite Es in *.
    apply enc_inj in He; [|apply pp; auto|nia].
    exists (q' - S - x / d). replace (x / d + (q' - S - x / d)) with (q' - S) by ring.
    split; [|split; [lia|]].
    + replace (x mod d - d * (q' - S - x / d)) with r' by nia. exact Hr'.
    + rewrite <- H, Eq. fold S. rewrite sub_enc. reflexivity.
  - intros (j & Hr & Hq & ->). specialize (Hrem _ Hr).
    apply accepts_bind. exists (enc p (x / d + j + pow2 s)).
    split; [apply accepts_hint1, enc_range, pp; auto|].
    apply accepts_bind. exists (enc p (x mod d - d * j)).
    split; [apply accepts_hint1, enc_range, pp; auto|].
    apply accepts_bind. exists tt. split.
    { apply accepts_assert_eq. rewrite mul_enc, add_enc. f_equal. lia. }
    destruct (proj2 (rem_checks (enc p (x mod d - d * j)) (enc_range _ _ (pp _ Hprime))))
      as (C1 & C2); [eauto|].
    apply accepts_bind. exists tt. split; [exact C1|].
    apply accepts_bind. exists tt. split; [exact C2|].
    apply accepts_bind. exists tt. split.
    { apply rc_enc; auto. exists (x / d + j + pow2 s). split; [lia|reflexivity]. }
    apply accepts_ret. rewrite sub_enc. f_equal. ring.
Qed.

Theorem div_const_exact x y : (k mod c = 0)%nat -> - (d * pow2 s) <= x < d * pow2 s ->
  acc (dc x) y <-> y = enc p (x / d).
Proof.
  intros Hk Hx. rewrite div_const_values by auto. unfold rem_ok. rewrite Hk. cbn [Nat.eqb].
  pose proof (Z.mod_pos_bound x d ltac:(lia)) as M.
  split.
  - intros (j & Hj & _ & ->). assert (j = 0) by nia. subst. rewrite Z.add_0_r. reflexivity.
  - intros ->. exists 0. rewrite Z.add_0_r, Z.mul_0_r, Z.sub_0_r. repeat split; try lia.
    + apply Z.div_le_lower_bound; [lia|].
      pose proof (pow2_le _ _ (rounded_ge c (s + 1))) as Ls.
      rewrite pow2_add in Ls at 1. change (pow2 1) with 2 in Ls. nia.
    + apply Z.div_lt_upper_bound; lia.
Qed.

(** Without divisibility the quotient is off by at most one. *)
Theorem div_const_off_by_one x y : - (d * pow2 s) <= x < d * pow2 s ->
  acc (dc x) y -> exists j, -1 <= j <= 1 /\ y = enc p (x / d + j).
Proof.
  intros Hx H. apply div_const_values in H as (j & Hr & _ & ->); auto.
  exists j. split; auto. pose proof k_spec. pose proof (Z.mod_pos_bound x d ltac:(lia)) as M.
  unfold rem_ok in Hr. destruct (k mod c =? 0)%nat; nia.
Qed.

Theorem div_const_run x : - (d * pow2 s) <= x < d * pow2 s ->
  rn (dc x) = Some (enc p (x / d)).
Proof.
  intros Hx. pose proof bounds as (B0 & B1 & B2). pose proof k_spec as (K1 & K2).
  pose proof (pow2_pos k) as Pk. pose proof (pow2_le _ _ (rounded_ge c k)) as Lk.
  pose proof (pow2_le _ _ (rounded_ge c (s + 1))) as Ls. pose proof (pow2_pos s) as Ps.
  assert (Es : pow2 (s + 1) = 2 * pow2 s) by (rewrite pow2_add; change (pow2 1) with 2; lia).
  unfold dc, div_const. destruct (Z.eqb_spec d 0); [lia|]. destruct (Z.eqb_spec d 1); [lia|].
  rewrite Hnp. cbv zeta. fold k. unfold unconstrained_int_div, unconstrained_mod.
  change (const p) with (enc p). rewrite !add_enc.
  assert (Ed : enc p d = d) by (apply enc_id; nia).
  assert (En : enc p (d * pow2 s + x) = d * pow2 s + x) by (apply enc_id; nia).
  set (t := d * pow2 s + x) in *.
  assert (Ht : 0 <= t < d * pow2 (s + 1)) by (unfold t; rewrite Es; lia).
  assert (Hq : 0 <= t / d < pow2 (s + 1)).
  { split; [apply Z.div_pos; lia | apply Z.div_lt_upper_bound; lia]. }
  pose proof (Z.mod_pos_bound t d ltac:(lia)) as Hm.
  assert (Hpq : t / d < p) by lia.
  assert (Hpm : t mod d < p) by lia.
  rewrite run_bind, (run_hint1 c F HIntDiv _ (t / d)).
  2:{ rewrite En, Ed. cbn. destruct (Z.eqb_spec d 0); [lia|reflexivity]. }
  rewrite run_bind, (run_hint1 c F HMod _ (t mod d)).
  2:{ rewrite En, Ed. cbn. destruct (Z.eqb_spec d 0); [lia|reflexivity]. }
  rewrite <- (enc_id p (t / d)) by lia.
  rewrite <- (enc_id p (t mod d)) by lia.
  rewrite run_bind, run_assert_eq.
  2:{ rewrite mul_enc, add_enc. f_equal. apply Z.div_mod. lia. }
  rewrite run_bind, run_range_check by (auto; lia).
  rewrite run_bind, sub_enc, run_range_check by (auto; lia).
  rewrite run_bind, run_range_check by (auto; lia).
  cbn [run]. rewrite sub_enc. do 2 f_equal.
  unfold t. rewrite Z.add_comm, Z.mul_comm, Z.div_add by lia. ring.
Qed.

End AnyDivisor.

(* ------------------------------------------------------------------ *)
(** ** Honest runs of the selector gadgets *)

Section SelRun.
Variable s : nat.
Hypothesis Hws : width_ok c (s + 1).
Hypothesis Hrs : pow2 (rounded c (s + 1)) <= p.
Hypothesis Hsz : 2 * pow2 (s + 1) <= p.

Lemma run_bool b : b = 0 \/ b = 1 -> rn (assert_bool p b) = Some tt.
Proof.
  intros Hb. unfold assert_bool. cbn [run].
  assert (E : mul p b (sub p b 1) = 0).
  { destruct Hb as [->| ->]; [reflexivity|].
    unfold mul, sub. cbn. reflexivity. }
  rewrite E. reflexivity.
Qed.

Lemma offset_cmp x a : signed_fits s x -> signed_fits s a ->
  (enc p (a + pow2 s) <=? enc p (x + pow2 s)) = (a <=? x).
Proof.
  intros Hx Ha. unfold signed_fits in *. change (2 ^ Z.of_nat s) with (pow2 s) in *.
  pose proof (pow2_pos s).
  assert (Es : pow2 (s + 1) = 2 * pow2 s) by (rewrite pow2_add; change (pow2 1) with 2; lia).
  rewrite !enc_id by lia. destruct (Z.leb_spec a x); [apply Z.leb_le|apply Z.leb_gt]; lia.
Qed.

Theorem max2_run x a : signed_fits s x -> signed_fits s a ->
  rn (constrained_max_2 p c s (const p (pow2 s)) (enc p x) (enc p a)) = Some (enc p (Z.max x a)).
Proof.
  intros Hx Ha. unfold constrained_max_2, unconstrained_greater_eq. cbv zeta.
  change (const p (pow2 s)) with (enc p (pow2 s)).
  rewrite !add_enc, run_bind, (run_hint1 c F HGreaterEq _ (b2z (a <=? x))).
  2:{ cbn. rewrite offset_cmp; auto. }
  rewrite run_bind, run_bool by (destruct (a <=? x); auto).
  pose proof (fits_diff s x a Hx Ha) as Fd.
  destruct (Z.leb_spec a x) as [L|L]; cbn [b2z]; rewrite ?sub_enc, ?sel0, ?sel1, ?mul0, ?mul1, ?mul_enc, ?add_enc, run_bind.
  - rewrite run_range_check by (auto; lia). cbn [run]. do 2 f_equal. lia.
  - rewrite run_range_check by (auto; lia). cbn [run]. do 2 f_equal. lia.
Qed.

Theorem min2_run x a : signed_fits s x -> signed_fits s a ->
  rn (constrained_min_2 p c s (const p (pow2 s)) (enc p x) (enc p a)) = Some (enc p (Z.min x a)).
Proof.
  intros Hx Ha. unfold constrained_min_2, unconstrained_greater_eq. cbv zeta.
  change (const p (pow2 s)) with (enc p (pow2 s)).
  rewrite !add_enc, run_bind, (run_hint1 c F HGreaterEq _ (b2z (x <=? a))).
  2:{ cbn. rewrite offset_cmp; auto. }
  rewrite run_bind, run_bool by (destruct (x <=? a); auto).
  pose proof (fits_diff s x a Hx Ha) as Fd.
  destruct (Z.leb_spec x a) as [L|L]; cbn [b2z]; rewrite ?sub_enc, ?sel0, ?sel1, ?mul0, ?mul1, ?mul_enc, ?sub_enc, run_bind.
  - rewrite run_range_check by (auto; lia). cbn [run]. do 2 f_equal. lia.
  - rewrite run_range_check by (auto; lia). cbn [run]. do 2 f_equal. lia.
Qed.

Theorem relu_run x : signed_fits s x ->
  rn (constrained_relu p c s (const p (pow2 s)) (enc p x)) = Some (enc p (relu x)).
Proof.
  intros Hx. unfold constrained_relu, unconstrained_greater_eq. cbv zeta.
  change (const p (pow2 s)) with (enc p (pow2 s)).
  assert (H0 : signed_fits s 0).
  { unfold signed_fits. change (2 ^ Z.of_nat s) with (pow2 s). pose proof (pow2_pos s). lia. }
  rewrite !add_enc, run_bind, (run_hint1 c F HGreaterEq _ (b2z (0 <=? x))).
  2:{ cbn. change (enc p (pow2 s)) with (enc p (0 + pow2 s)). rewrite offset_cmp; auto. }
  rewrite run_bind, run_bool by (destruct (0 <=? x); auto).
  pose proof (fits_pow s x Hx) as Fd. unfold relu.
  destruct (Z.leb_spec 0 x) as [L|L]; cbn [b2z]; rewrite ?mul0, ?mul1, ?add_enc, ?sub_enc, run_bind.
  - rewrite run_range_check by (auto; lia). cbn [run]. reflexivity.
  - rewrite run_range_check by (auto; lia). cbn [run]. reflexivity.
Qed.

End SelRun.

End RS.
