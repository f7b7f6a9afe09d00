From Coq Require Import ZArith List Bool Znumtheory Lia.
From Verif Require Import Spec.Numbers Model.Builder Model.Gadgets Model.Layers Proofs.Builder
  Proofs.RangeCheck Proofs.Gadgets Proofs.Division Proofs.Layers.
Import ListNotations.
Local Open Scope Z_scope.

Lemma fold_add_enc p xs : forall a, fold_left (add p) (map (enc p) xs) (enc p a) = enc p (a + zsum xs).
Proof.
  induction xs as [|x xs IH]; intros a; cbn [map fold_left zsum fold_right].
  - now rewrite Z.add_0_r.
  - rewrite add_enc, IH. f_equal. unfold zsum. lia.
Qed.

Lemma sum_vars_enc p xs : sum_vars p (map (enc p) xs) = enc p (zsum xs).
Proof. destruct xs as [|x xs]; [reflexivity|]. cbn [sum_vars map]. now rewrite fold_add_enc. Qed.

Lemma zsum_bounds lo hi xs : (forall x, In x xs -> lo <= x <= hi) ->
  lo * Z.of_nat (length xs) <= zsum xs <= hi * Z.of_nat (length xs).
Proof.
  induction xs as [|x xs IH]; intros H; cbn [zsum fold_right length]; [lia|].
  rewrite Nat2Z.inj_succ. pose proof (H x (or_introl eq_refl)).
  specialize (IH (fun y Hy => H y (or_intror Hy))). unfold zsum in *. nia.
Qed.

Lemma bit_length_bound z : 0 <= z -> z < pow2 (bit_length z) /\ (0 < z -> pow2 (bit_length z) <= 2 * z).
Proof.
  intros Hz. unfold bit_length. destruct (Z.eqb_spec z 0) as [->|Hn]; [split; [reflexivity|lia]|].
  pose proof (Z.log2_nonneg z). unfold pow2, zn. rewrite Z2Nat.id by lia.
  pose proof (Z.log2_spec z ltac:(lia)) as L. rewrite Z.pow_add_r in * by lia.
  change (2 ^ 1) with 2. rewrite Z.pow_succ_r in L by lia. lia.
Qed.

Section L.
Variable p : Z.
Hypothesis Hprime : prime p.
Variable c : nat.
Hypothesis Hc : (0 < c)%nat.
Variable F : nat -> list (list Z).
Notation acc := (accepts p (table_rows c F)).

Lemma rci_full n x : 0 <= x < pow2 n -> rci c n x.
Proof. intros H. unfold rci. pose proof (pow2_le _ _ (rounded_ge c n)). lia. Qed.

(** ** Average pooling *)
Section Avg.
Variable nb : nat.
Variable xs : list Z.
Let n := Z.of_nat (length xs).
Let k := ceil_log2 (length xs).
Hypothesis Hn : (2 <= length xs)%nat.
Hypothesis Hwn : width_ok c nb.
Hypothesis Hwk : width_ok c k.
Hypothesis Hbig : 2 * n * pow2 (rounded c nb) + 2 * n + pow2 (rounded c k) <= p.
Hypothesis Hxs : forall x, In x xs -> 0 <= x < pow2 nb.

(** The rounding residual of output [Y]. *)
Definition avg_res (Y : Z) : Z := zsum xs + n / 2 - n * Y.

Lemma avg_window_acc y :
  acc (avgpool_window p c nb (map (enc p) xs)) y <->
  exists Y, y = enc p Y /\ rci c nb Y /\ rci c k (avg_res Y) /\ rci c k (n - 1 - avg_res Y).
Proof.
  pose proof (prime_ge_2 _ Hprime) as H2.
  pose proof (pow2_pos (rounded c nb)) as Pn. pose proof (pow2_pos (rounded c k)) as Pk.
  pose proof (pow2_pos nb) as Pn'. pose proof (pow2_pos k) as Pk'.
  pose proof (pow2_le _ _ (rounded_ge c nb)) as Ln. pose proof (pow2_le _ _ (rounded_ge c k)) as Lk.
  assert (Hn' : 2 <= n) by (unfold n; lia).
  assert (Pnb : pow2 (rounded c nb) <= p) by nia.
  assert (Pkb : pow2 (rounded c k) <= p) by nia.
  assert (Hsum : 0 <= zsum xs <= n * pow2 (rounded c nb)).
  { pose proof (zsum_bounds 0 (pow2 nb) xs) as B. fold n in B.
    assert (0 * n <= zsum xs <= pow2 nb * n) by (apply B; intros x Hx; specialize (Hxs x Hx); lia). nia. }
  assert (Hhalf : 0 <= n / 2 <= n) by (split; [apply Z.div_pos; lia|apply Z.div_le_upper_bound; lia]).
  assert (EW : avgpool_window p c nb (map (enc p) xs) =
     (let* _ := forM (fun v => range_check p c v nb) (map (enc p) xs) in
      let* y := hint1 (HCustom 3) (map (enc p) xs) in
      let r := sub p (sum_vars p (map (enc p) xs)) (mul p (const p n) y) in
      let s := add p r (const p (n / 2)) in
      let* _ := range_check p c s k in
      let* _ := range_check p c (sub p (const p (n - 1)) s) k in
      let* _ := range_check p c y nb in
      Ret y)).
  { unfold avgpool_window, k, n, zn. rewrite map_length.
    destruct xs as [|x1 [|x2 xr]]; cbn [length] in Hn; [lia|lia|]. reflexivity. }
  assert (Es : forall Y, add p (sub p (sum_vars p (map (enc p) xs)) (mul p (const p n) (enc p Y))) (const p (n / 2))
     = enc p (avg_res Y)).
  { intros Y. rewrite sum_vars_enc. change (const p n) with (enc p n). change (const p (n / 2)) with (enc p (n / 2)).
    rewrite mul_enc, sub_enc, add_enc. f_equal. unfold avg_res. ring. }
  assert (Et : forall Y, sub p (const p (n - 1)) (enc p (avg_res Y)) = enc p (n - 1 - avg_res Y)).
  { intros Y. change (const p (n - 1)) with (enc p (n - 1)). apply sub_enc. }
  assert (Bs : forall Y, rci c nb Y -> - (n * pow2 (rounded c nb)) <= avg_res Y <= 2 * n * pow2 (rounded c nb) + n).
  { intros Y HY. unfold rci in HY. unfold avg_res.
    assert (- pow2 (rounded c nb) <= Y <= pow2 (rounded c nb)) by lia. nia. }
  rewrite EW, accepts_bind. split.
  - intros ([] & _ & H). apply accepts_bind in H as (y0 & Hy & H). apply accepts_hint1 in Hy.
    apply accepts_bind in H as ([] & H1 & H). apply accepts_bind in H as ([] & H3 & H).
    apply accepts_bind in H as ([] & H4 & H). apply accepts_ret in H. subst y0.
    apply rc_of in H4; auto. destruct H4 as (Y & HY & ->). exists Y. rewrite Es in H1, H3. rewrite Et in H3.
    pose proof (Bs Y HY).
    apply rc_int in H1; auto; [|lia]. apply rc_int in H3; auto; lia.
  - intros (Y & -> & HY & H1 & H3). exists tt. split.
    + apply accepts_forM, Forall_map, Forall_forall. intros x Hx. specialize (Hxs x Hx).
      apply rc_slack; auto. lia.
    + apply accepts_bind. exists (enc p Y). split; [apply accepts_hint1, enc_range; lia|].
      cbv beta zeta. rewrite Es, Et. apply accepts_bind. exists tt. split; [apply rc_slack; auto|].
      apply accepts_bind. exists tt. split; [apply rc_slack; auto|].
      apply accepts_bind. exists tt. split; [apply rc_slack; auto|]. apply accepts_ret. auto.
Qed.

Lemma k_bound : n - 1 < pow2 k /\ pow2 k <= 2 * (n - 1).
Proof.
  unfold k, ceil_log2, n, zn. destruct (Nat.leb_spec (length xs) 1); [lia|].
  pose proof (bit_length_bound (Z.of_nat (length xs) - 1) ltac:(lia)) as (A & B). split; auto. apply B. lia.
Qed.

Lemma rounded_double m : (m mod c <> 0)%nat -> 2 * pow2 m <= pow2 (rounded c m).
Proof.
  intros H. rewrite <- pow2_S. apply pow2_le. unfold rounded, range_shift.
  destruct (Nat.eqb_spec (m mod c) 0); [lia|]. pose proof (Nat.mod_upper_bound m c). lia.
Qed.

(** Exact when the residual width is a multiple of the chunk or the window is a power of two. *)
Lemma avg_residual Y : (k mod c = 0)%nat \/ n = pow2 k ->
  rci c k (avg_res Y) /\ rci c k (n - 1 - avg_res Y) <-> Y = mean_round xs.
Proof.
  intros He. destruct k_bound as (K1 & K2). assert (Hn' : 2 <= n) by (unfold n; lia).
  assert (G : rci c k (avg_res Y) /\ rci c k (n - 1 - avg_res Y) <-> 0 <= avg_res Y <= n - 1).
  { destruct (Nat.eq_dec (k mod c) 0) as [E|E].
    - rewrite !rci_exact by auto. lia.
    - pose proof (rounded_double k E). destruct He as [?|He]; [contradiction|].
      unfold rci. lia. }
  rewrite G. unfold avg_res, mean_round. fold n. pose proof (Z.div_mod (zsum xs + n / 2) n ltac:(lia)) as D.
  pose proof (Z.mod_pos_bound (zsum xs + n / 2) n ltac:(lia)) as M. split.
  - intros H. apply Z.div_unique with (zsum xs + n / 2 - n * Y); lia.
  - intros ->. lia.
Qed.

Theorem avgpool_exact y : (k mod c = 0)%nat \/ n = pow2 k ->
  acc (avgpool_window p c nb (map (enc p) xs)) y <-> y = enc p (mean_round xs).
Proof.
  intros He. rewrite avg_window_acc. split.
  - intros (Y & -> & _ & H). apply avg_residual in H; auto. now subst.
  - intros ->. exists (mean_round xs). split; auto. split; [|apply avg_residual; auto].
    apply rci_full. unfold mean_round. fold n. assert (Hn' : 2 <= n) by (unfold n; lia).
    assert (Hhalf : 0 <= n / 2 < n) by (split; [apply Z.div_pos; lia|apply Z.div_lt_upper_bound; lia]).
    pose proof (zsum_bounds 0 (pow2 nb - 1) xs) as B. fold n in B.
    assert (B' : 0 * n <= zsum xs <= (pow2 nb - 1) * n) by (apply B; intros x Hx; specialize (Hxs x Hx); lia).
    split; [apply Z.div_pos; lia|]. apply Z.div_lt_upper_bound; nia.
Qed.

(** In every other case exactly the outputs whose residual lies in
    [n - 2^k, 2^k - 1] are accepted. *)
Theorem avgpool_slack y : (k mod c <> 0)%nat ->
  acc (avgpool_window p c nb (map (enc p) xs)) y <->
  exists Y, y = enc p Y /\ rci c nb Y /\ n - pow2 k <= zsum xs + n / 2 - n * Y <= pow2 k - 1.
Proof.
  intros E. rewrite avg_window_acc. destruct k_bound as (K1 & K2). pose proof (rounded_double k E).
  unfold rci, avg_res. split.
  - intros (Y & -> & HY & H1 & H3). exists Y. repeat split; auto; lia.
  - intros (Y & -> & HY & H1). exists Y. repeat split; auto; lia.
Qed.
End Avg.

(** ** ReduceMean *)
Section Mean.
Variable nb : nat.
Variable xs : list Z.
Let n := Z.of_nat (length xs).
Let k := reduce_mean_bits (length xs).
Hypothesis Hn : (1 <= length xs)%nat.
Hypothesis Hnb : (1 <= nb)%nat.
Hypothesis Hwn : width_ok c nb.
Hypothesis Hwk : width_ok c k.
Hypothesis Hbig : 3 * n * pow2 (rounded c nb) + 2 * n + 2 * pow2 (rounded c k) <= p.
Hypothesis Hxs : forall x, In x xs -> - pow2 (nb - 1) <= x < pow2 (nb - 1).

Definition mean_res (Y : Z) : Z := zsum xs + n / 2 - n * Y.

Lemma reduce_mean_acc y :
  acc (reduce_mean_out p c nb (length xs) (map (enc p) xs)) y <->
  exists Y, y = enc p Y /\ rci c nb (Y + pow2 (nb - 1)) /\ rci c k (mean_res Y) /\
    (is_pow2 n = false -> rci c k (n - 1 - mean_res Y)).
Proof.
  pose proof (prime_ge_2 _ Hprime) as H2.
  pose proof (pow2_pos (rounded c nb)) as Pn. pose proof (pow2_pos (rounded c k)) as Pk.
  pose proof (pow2_pos nb) as Pn'. pose proof (pow2_pos k) as Pk'. pose proof (pow2_pos (nb - 1)) as Pn1.
  pose proof (pow2_le _ _ (rounded_ge c nb)) as Ln. pose proof (pow2_le _ _ (rounded_ge c k)) as Lk.
  assert (Hn' : 1 <= n) by (unfold n; lia).
  assert (Pnb : pow2 (rounded c nb) <= p) by nia.
  assert (Pkb : pow2 (rounded c k) <= p) by nia.
  assert (Hh : pow2 nb = 2 * pow2 (nb - 1)) by (rewrite <- pow2_S; f_equal; lia).
  assert (Hsum : - (n * pow2 (rounded c nb)) <= zsum xs <= n * pow2 (rounded c nb)).
  { pose proof (zsum_bounds (- pow2 (nb - 1)) (pow2 (nb - 1)) xs) as B. fold n in B.
    assert (- pow2 (nb - 1) * n <= zsum xs <= pow2 (nb - 1) * n) by (apply B; intros x Hx; specialize (Hxs x Hx); lia). nia. }
  assert (Hhalf : 0 <= n / 2 <= n) by (split; [apply Z.div_pos; lia|apply Z.div_le_upper_bound; lia]).
  assert (Bs : forall Y, rci c nb (Y + pow2 (nb - 1)) ->
      - (2 * n * pow2 (rounded c nb)) <= mean_res Y <= 3 * n * pow2 (rounded c nb) + n).
  { intros Y HY. unfold rci in HY. unfold mean_res.
    assert (- (2 * pow2 (rounded c nb)) <= Y <= pow2 (rounded c nb)) by lia. nia. }
  unfold reduce_mean_out. destruct (Nat.eqb_spec nb 0); [lia|]. fold k.
  change (zn (length xs)) with n. rewrite sum_vars_enc.
  change (const p n) with (enc p n). change (const p (n / 2)) with (enc p (n / 2)).
  change (const p (n - 1)) with (enc p (n - 1)). change (const p (pow2 (nb - 1))) with (enc p (pow2 (nb - 1))).
  rewrite accepts_bind. split.
  - intros (y0 & Hy & H). apply accepts_hint1 in Hy.
    apply accepts_bind in H as (r & Hr & H). apply accepts_hint1 in Hr.
    apply accepts_bind in H as ([] & He & H). apply accepts_assert_eq in He.
    apply accepts_bind in H as ([] & H1 & H). apply accepts_bind in H as ([] & H3 & H).
    apply accepts_bind in H as ([] & H4 & H). apply accepts_ret in H. subst y0.
    apply rc_of in H4; auto; [|apply Z.mod_pos_bound; lia]. destruct H4 as (Z0 & HZ & EZ).
    set (Y := Z0 - pow2 (nb - 1)).
    assert (EY : y = enc p Y).
    { rewrite <- (enc_id p y Hy) in EZ. rewrite add_enc in EZ. rewrite <- (enc_id p y Hy). unfold enc in *.
      unfold Y. rewrite Zminus_mod, <- EZ, <- Zminus_mod. f_equal. lia. }
    exists Y. subst y.
    assert (HY : rci c nb (Y + pow2 (nb - 1))) by (unfold Y; replace (Z0 - pow2 (nb - 1) + pow2 (nb - 1)) with Z0 by lia; auto).
    pose proof (Bs Y HY) as BY.
    assert (Er : r = enc p (mean_res Y)).
    { rewrite <- (enc_id p r Hr) in He. rewrite mul_enc, !add_enc in He. rewrite <- (enc_id p r Hr). unfold enc in *.
      unfold mean_res. rewrite Zminus_mod, He, <- Zminus_mod. f_equal. ring. }
    rewrite Er in H1, H3. split; auto. split; auto.
    apply rc_int in H1; auto; [|lia]. split; auto.
    intros Ep. rewrite Ep in H3. rewrite sub_enc in H3. apply rc_int in H3; auto; lia.
  - intros (Y & -> & HY & H1 & H3). exists (enc p Y). split; [apply accepts_hint1, enc_range; lia|].
    apply accepts_bind. exists (enc p (mean_res Y)). split; [apply accepts_hint1, enc_range; lia|].
    apply accepts_bind. exists tt. split.
    { apply accepts_assert_eq. rewrite mul_enc, !add_enc. f_equal. unfold mean_res. ring. }
    apply accepts_bind. exists tt. split; [apply rc_slack; auto|].
    apply accepts_bind. exists tt. split.
    { destruct (is_pow2 n); [apply accepts_ret; auto|]. rewrite sub_enc. apply rc_slack; auto. apply H3. auto. }
    apply accepts_bind. exists tt. split; [|apply accepts_ret; auto]. rewrite add_enc. apply rc_slack; auto.
Qed.

Lemma mk_bound : (2 <= length xs)%nat -> n - 1 < pow2 k /\ pow2 k <= 2 * (n - 1).
Proof.
  intros H. unfold k, reduce_mean_bits, n, zn.
  pose proof (bit_length_bound (Z.of_nat (length xs) - 1) ltac:(lia)) as (A & B).
  specialize (B ltac:(lia)).
  replace (Nat.max 1 (bit_length (Z.of_nat (length xs) - 1))) with (bit_length (Z.of_nat (length xs) - 1)); [lia|].
  destruct (bit_length (Z.of_nat (length xs) - 1)) eqn:E; [|lia]. cbn in A. change (pow2 0) with 1 in A. lia.
Qed.

Theorem reduce_mean_exact y : (2 <= length xs)%nat -> (k mod c = 0)%nat ->
  acc (reduce_mean_out p c nb (length xs) (map (enc p) xs)) y <-> y = enc p (mean_round xs).
Proof.
  intros H2 He. rewrite reduce_mean_acc. destruct (mk_bound H2) as (K1 & K2).
  assert (Hn' : 2 <= n) by (unfold n; lia).
  assert (G : forall Y, (rci c k (mean_res Y) /\ (is_pow2 n = false -> rci c k (n - 1 - mean_res Y))) <-> Y = mean_round xs).
  { intros Y. assert (G : (rci c k (mean_res Y) /\ (is_pow2 n = false -> rci c k (n - 1 - mean_res Y)))
         <-> 0 <= mean_res Y <= n - 1).
    { rewrite !rci_exact by auto. destruct (is_pow2 n) eqn:E.
      - assert (n = pow2 k).
        { unfold is_pow2 in E. apply andb_true_iff in E as (_ & E). apply Z.eqb_eq in E.
          pose proof (Z.log2_nonneg n). unfold pow2 in *.
          assert (K3 : 2 ^ Z.log2 n <= 2 ^ zn k) by lia. assert (K4 : 2 ^ zn k < 2 * 2 ^ Z.log2 n) by lia.
          apply Z.pow_le_mono_r_iff in K3; [|lia|unfold zn; lia].
          rewrite <- Z.pow_succ_r in K4 by lia. apply Z.pow_lt_mono_r_iff in K4; [|lia|lia].
          rewrite E. f_equal. lia. }
        split; [intros (A & _); lia|]. intros. split; [lia|congruence].
      - split; [intros (A & B); specialize (B eq_refl); lia|]. intros. split; [lia|intros _; lia]. }
    rewrite G. unfold mean_res, mean_round. fold n. pose proof (Z.div_mod (zsum xs + n / 2) n ltac:(lia)) as D.
    pose proof (Z.mod_pos_bound (zsum xs + n / 2) n ltac:(lia)) as M. split.
    - intros H. apply Z.div_unique with (zsum xs + n / 2 - n * Y); lia.
    - intros ->. lia. }
  split.
  - intros (Y & -> & _ & H). apply G in H. now subst.
  - intros ->. exists (mean_round xs). split; auto. split; [|apply G; auto].
    apply rci_full. unfold mean_round. fold n.
    assert (Hh : pow2 nb = 2 * pow2 (nb - 1)) by (rewrite <- pow2_S; f_equal; lia).
    assert (Hhalf : 0 <= n / 2 < n) by (split; [apply Z.div_pos; lia|apply Z.div_lt_upper_bound; lia]).
    pose proof (zsum_bounds (- pow2 (nb - 1)) (pow2 (nb - 1) - 1) xs) as B. fold n in B.
    assert (B' : (- pow2 (nb - 1)) * n <= zsum xs <= (pow2 (nb - 1) - 1) * n)
      by (apply B; intros x Hx; specialize (Hxs x Hx); lia).
    assert (- pow2 (nb - 1) <= (zsum xs + n / 2) / n) by (apply Z.div_le_lower_bound; nia).
    assert ((zsum xs + n / 2) / n < pow2 (nb - 1)) by (apply Z.div_lt_upper_bound; nia). lia.
Qed.
End Mean.

(** ** Pow *)
Section Pow.
Variable kappa nb : nat.
Hypothesis Hwk : width_ok c kappa.
Hypothesis Hpk : pow2 (rounded c kappa) <= p.
Let S_ := const p (pow2 kappa).

(** One step accepts any field element [q] with q * S + rem = a * b, rem range checked. *)
Lemma pow_step_acc a b q :
  acc (pow_step p c S_ kappa a b) q <->
  0 <= q < p /\ exists r, rci c kappa r /\ add p (mul p q S_) (enc p r) = mul p a b.
Proof.
  pose proof (prime_ge_2 _ Hprime) as H2. unfold pow_step. rewrite accepts_bind. split.
  - intros (q0 & Hq & H). apply accepts_hint1 in Hq. apply accepts_bind in H as (r & Hr & H). apply accepts_hint1 in Hr.
    apply accepts_bind in H as ([] & He & H). apply accepts_assert_eq in He.
    apply accepts_bind in H as ([] & Hrc & H). apply accepts_ret in H. subst q0. split; auto.
    apply rc_of in Hrc; auto. destruct Hrc as (x & Hx & ->). eauto.
  - intros (Hq & r & Hr & E). exists q. split; [apply accepts_hint1; auto|].
    apply accepts_bind. exists (enc p r). split; [apply accepts_hint1, enc_range; lia|].
    apply accepts_bind. exists tt. split; [apply accepts_assert_eq; auto|].
    apply accepts_bind. exists tt. split; [apply rc_slack; auto|apply accepts_ret; auto].
Qed.

Lemma scale_inv : pow2 kappa < p -> exists u, (u * pow2 kappa) mod p = 1.
Proof.
  intros Hlt. pose proof (prime_ge_2 _ Hprime) as H2. pose proof (pow2_pos kappa).
  assert (R : rel_prime (pow2 kappa) p).
  { apply rel_prime_sym. apply prime_rel_prime; auto. intros (k & Hk). assert (k = 0) by nia. lia. }
  apply rel_prime_bezout in R as [u v B]. exists u.
  replace (u * pow2 kappa) with (1 + (- v) * p) by lia. rewrite Z_mod_plus_full. apply Z.mod_small. lia.
Qed.

Lemma pow_step_any a b : pow2 kappa < p -> exists q, acc (pow_step p c S_ kappa a b) q.
Proof.
  intros Hlt. pose proof (prime_ge_2 _ Hprime) as H2. destruct (scale_inv Hlt) as (u & Hu).
  exists (enc p (a * b * u)). apply pow_step_acc. split; [apply enc_range; lia|].
  exists 0. split; [apply rci_full; pose proof (pow2_pos kappa); lia|].
  unfold S_. change (const p (pow2 kappa)) with (enc p (pow2 kappa)). rewrite mul_enc, add_enc.
  unfold enc, mul. rewrite Z.add_0_r.
  replace (a * b * u * pow2 kappa) with ((a * b) * (u * pow2 kappa)) by ring.
  rewrite Zmult_mod, Hu, Z.mul_1_r, Zmod_mod. reflexivity.
Qed.

Lemma pow_loop_any e r b : pow2 kappa < p -> exists q, acc (pow_loop p c S_ kappa e r b) q.
Proof.
  intros Hlt. revert r b. induction e as [e IH|e IH|]; intros r b; cbn [pow_loop].
  - destruct (pow_step_any r b Hlt) as (r' & Hr). destruct (pow_step_any b b Hlt) as (b' & Hb).
    destruct (IH r' b') as (q & Hq). exists q. apply accepts_bind. exists r'. split; auto.
    apply accepts_bind. exists b'. auto.
  - destruct (pow_step_any b b Hlt) as (b' & Hb). destruct (IH r b') as (q & Hq).
    exists q. apply accepts_bind. exists b'. auto.
  - apply pow_step_any; auto.
Qed.

(** A negative exponent accepts every output that passes the final range check. *)
Theorem pow_negative_any x e y : pow2 kappa < p -> 0 <= y < p ->
  acc (pow_element p c kappa nb x (Zneg e)) y <-> acc (range_check p c y nb) tt.
Proof.
  intros Hlt Hy. pose proof (prime_ge_2 _ Hprime) as H2. unfold pow_element. rewrite accepts_bind. split.
  - intros (y0 & _ & H). apply accepts_bind in H as ([] & Hr & H). apply accepts_ret in H. now subst.
  - intros Hr. exists y. split.
    2:{ apply accepts_bind. exists tt. split; auto. apply accepts_ret. auto. }
    cbn [pow_integer]. fold S_. destruct (pow_loop_any e S_ x Hlt) as (r & Hl).
    apply accepts_bind. exists r. split; auto.
    apply accepts_bind. exists y. split; [apply accepts_hint1; auto|].
    apply accepts_bind. exists (sub p (mul p S_ S_) (mul p y r)).
    split; [apply accepts_hint1; apply Z.mod_pos_bound; lia|].
    apply accepts_bind. exists tt. split; [|apply accepts_ret; auto]. apply accepts_assert_eq.
    unfold add, sub. rewrite Zplus_mod_idemp_r. unfold mul at 2. 
    replace (mul p y r + ((S_ * S_) mod p - mul p y r)) with ((S_ * S_) mod p) by ring.
    apply Zmod_mod.
Qed.

(** Squaring: two remainders are free, so the accepted outputs are
    (x^2 - r1 - r2) / 2^kappa for all in-range r1, r2 that divide. *)
Theorem pow_square x y : width_ok c nb -> pow2 kappa < p ->
  0 <= x -> x * x + 2 * pow2 (rounded c kappa) + pow2 kappa * pow2 (rounded c nb) <= p ->
  acc (pow_element p c kappa nb (enc p x) 2) y <->
  exists Y r1 r2, y = enc p Y /\ rci c nb Y /\ rci c kappa r1 /\ rci c kappa r2 /\ Y * pow2 kappa + r1 + r2 = x * x.
Proof.
  intros Hwn Hlt Hx Hb. pose proof (prime_ge_2 _ Hprime) as H2.
  pose proof (pow2_pos kappa) as Pk. pose proof (pow2_pos (rounded c kappa)) as Prk.
  pose proof (pow2_pos (rounded c nb)) as Prn.
  pose proof (pow2_le _ _ (rounded_ge c kappa)) as Lk. pose proof (pow2_le _ _ (rounded_ge c nb)) as Ln.
  pose proof (pow2_pos nb) as Pn.
  assert (Pnb : pow2 (rounded c nb) <= p) by nia.
  destruct (scale_inv Hlt) as (u & Hu).
  unfold pow_element. rewrite accepts_bind. cbn [pow_integer pow_loop]. fold S_.
  assert (ES : S_ = enc p (pow2 kappa)) by reflexivity.
  split.
  - intros (y0 & H & H'). apply accepts_bind in H' as ([] & Hr & H'). apply accepts_ret in H'. subst y0.
    apply accepts_bind in H as (b & Hb1 & H).
    apply pow_step_acc in Hb1 as (Rb & r1 & Hr1 & E1). apply pow_step_acc in H as (Ry & r2 & Hr2 & E2).
    apply rc_of in Hr; auto. destruct Hr as (Y & HY & ->). exists Y, r1, r2.
    split; auto. split; auto. split; auto. split; auto.
    assert (E3 : enc p (Y * pow2 kappa + r2 + r1) = enc p (x * x)).
    { rewrite ES in *. rewrite mul_enc in E1, E2. rewrite add_enc in E2. rewrite <- (enc_id p b Rb) in E1, E2.
      rewrite mul_enc in *. rewrite add_enc in E1. rewrite <- E1.
      unfold enc in *. rewrite Zplus_mod, E2, <- Zplus_mod. f_equal. ring. }
    apply enc_inj in E3; [lia|lia|]. unfold rci in *. nia.
  - intros (Y & r1 & r2 & -> & HY & Hr1 & Hr2 & E). exists (enc p Y). split.
    2:{ apply accepts_bind. exists tt. split; [apply rc_slack; auto|apply accepts_ret; auto]. }
    apply accepts_bind. exists (enc p ((x * x - r1) * u)). split.
    + apply pow_step_acc. split; [apply enc_range; lia|]. exists r1. split; auto.
      rewrite ES, !mul_enc, add_enc. unfold enc.
      replace ((x * x - r1) * u * pow2 kappa) with ((x * x - r1) * (u * pow2 kappa)) by ring.
      rewrite Zplus_mod, (Zmult_mod (x * x - r1)), Hu, Z.mul_1_r, Zmod_mod, <- Zplus_mod. f_equal. ring.
    + apply pow_step_acc. split; [apply enc_range; lia|]. exists r2. split; auto.
      rewrite ES, !mul_enc, add_enc. unfold enc.
      replace (pow2 kappa * ((x * x - r1) * u)) with ((x * x - r1) * (u * pow2 kappa)) by ring.
      rewrite (Zmult_mod (x * x - r1)), Hu, Z.mul_1_r, Zmod_mod. f_equal. lia.
Qed.
End Pow.
End L.
