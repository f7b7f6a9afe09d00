From Coq Require Import ZArith List Bool Lia Znumtheory.
From Verif Require Import Spec.Numbers Model.Builder Model.Gadgets Proofs.Builder
  Proofs.RangeCheck Proofs.Gadgets.
Import ListNotations.
Local Open Scope Z_scope.

Lemma lt_pow2 n : Z.of_nat n < pow2 n.
Proof.
  induction n; [reflexivity|]. rewrite pow2_S, Nat2Z.inj_succ. pose proof (pow2_pos n). lia.
Qed.

Lemma div_sandwich x a q r : 0 < a -> x = a * q + r -> 0 <= r < a -> q = x / a.
Proof. intros Ha E Hr. apply (Z.div_unique x a q r); auto. Qed.

Section D.
Variable p : Z.
Hypothesis Hprime : prime p.
Variable c : nat.
Hypothesis Hc : (0 < c)%nat.
Variable F : nat -> list (list Z).
Notation acc := (accepts p (table_rows c F)).
Notation rn := (run honest_hint (table_rowsb c F)).

Local Hint Resolve p_pos : core.
Lemma pp : 0 < p. Proof. apply p_pos; auto. Qed.

(* ------------------------------------------------------------------ *)
(** ** Honest runs of the range check *)

Lemma run_hint1 h ins v : honest_hint h ins 1 = Some [v] -> rn (hint1 h ins) = Some v.
Proof. intros E. unfold hint1. cbn [run]. rewrite E. reflexivity. Qed.

Lemma run_assert_eq x y : x = y -> rn (assert_eq x y) = Some tt.
Proof. intros ->. cbn. rewrite Z.eqb_refl. reflexivity. Qed.

Lemma run_range_lookups ws : Forall (fun w => 0 <= w < pow2 c) ws ->
  rn (forM (fun w => lookup TRange [w]) ws) = Some tt.
Proof.
  induction 1 as [|w ws Hw H IH]; [reflexivity|].
  cbn [forM]. rewrite run_bind. cbn [lookup run table_rowsb].
  destruct (Z.leb_spec 0 w); [|lia]. destruct (Z.ltb_spec w (pow2 c)); [|lia]. exact IH.
Qed.

Theorem run_range_check z n : width_ok c n -> pow2 (rounded c n) <= p -> 0 <= z < pow2 n ->
  rn (range_check p c (enc p z) n) = Some tt.
Proof.
  intros (Hn & Hn128) Hr Hz. pose proof pp as Hp.
  pose proof (pow2_le _ _ (rounded_ge c n)) as Hle0.
  assert (Ez : enc p z = z) by (apply Z.mod_small; lia).
  assert (Hs : shifted_value p c (enc p z) n = z + (pow2 (rounded c n) - pow2 n)).
  { rewrite shifted_value_spec by (auto; apply enc_range; auto).
    rewrite Ez. apply Z.mod_small. lia. }
  unfold range_check.
  destruct (Nat.eqb_spec n 0); [lia|]. destruct (Nat.ltb_spec 128 n); [lia|].
  unfold rangeproof. destruct (Nat.ltb_spec 128 n); [lia|].
  destruct (Nat.leb_spec n c) as [Hle|Hgt].
  - unfold rangeproof_onechunk. destruct (Nat.ltb_spec c n); [lia|].
    cbn [lookup run table_rowsb]. rewrite Hs.
    assert (E : rounded c n = c).
    { unfold rounded, range_shift. destruct (Nat.eq_dec n c) as [->|].
      + rewrite Nat.mod_same by lia. cbn. lia.
      + rewrite Nat.mod_small by lia. destruct (Nat.eqb_spec n 0); lia. }
    rewrite E in *.
    destruct (Z.leb_spec 0 (z + (pow2 c - pow2 n))); [|lia].
    destruct (Z.ltb_spec (z + (pow2 c - pow2 n)) (pow2 c)); [reflexivity|lia].
  - assert (Hguard : (n =? 128)%nat && negb (n mod c =? 0)%nat = false).
    { destruct (Nat.eqb_spec n 128); [|reflexivity].
      destruct (Nat.eqb_spec (n mod c) 0); [reflexivity|].
      exfalso. destruct (Hn128 e); lia. }
    rewrite Hguard. fold (rounded c n). cbv zeta.
    destruct (rounded_mult c n Hc) as (k & Hk).
    assert (Hkc : (rounded c n / c = k)%nat) by (rewrite Hk; apply Nat.div_mul; lia).
    assert (Hk0 : (0 < k)%nat).
    { destruct k; [|lia]. pose proof (rounded_ge c n). lia. }
    rewrite Hkc, Hs, run_bind.
    set (v := z + (pow2 (rounded c n) - pow2 n)) in *.
    assert (Hv : 0 <= v < pow2 (k * c)) by (unfold v; rewrite <- Hk; lia).
    destruct (digits_of_spec c k v Hv) as (Hl & Hf & Hd).
    set (ws := digits_of (pow2 c) v k) in *.
    assert (Hh : honest_hint HRangeProof [const p (zn (rounded c n)); const p (zn c); v] k = Some ws).
    { assert (E1 : const p (zn (rounded c n)) = zn (rounded c n)).
      { apply Z.mod_small. pose proof (lt_pow2 (rounded c n)). unfold zn. lia. }
      assert (E2 : const p (zn c) = zn c).
      { apply Z.mod_small. pose proof (lt_pow2 (rounded c n)). pose proof (rounded_ge c n).
        unfold zn. lia. }
      rewrite E1, E2. cbn [honest_hint].
      destruct (Z.eqb_spec (zn c) 0); [unfold zn in *; lia|].
      assert (E3 : zn (rounded c n) / zn c = Z.of_nat k).
      { unfold zn. rewrite Hk, Nat2Z.inj_mul, Z.div_mul; lia. }
      rewrite E3. destruct (Z.ltb_spec (Z.of_nat k) (Z.of_nat k)); [lia|].
      rewrite Nat2Z.id, Nat.sub_diag. cbn [repeat]. rewrite app_nil_r. reflexivity. }
    unfold hintn. cbn [run]. rewrite Hh, Hl, Nat.eqb_refl. cbn [run].
    rewrite run_bind, run_assert_eq.
    + rewrite firstn_all2 by lia. apply run_range_lookups; auto.
    + destruct ws as [|w ws']; [cbn in Hl; lia|]. cbn [hd tl].
      assert (0 <= w < p).
      { assert (0 <= w < pow2 c) by (inversion Hf; auto). rewrite Hk in Hr.
        pose proof (pow2_le c (k * c) ltac:(nia)). lia. }
      rewrite recompose_spec, Nat.mul_1_r by auto.
      change (w + pow2 c * dval c ws') with (dval c (w :: ws')).
      rewrite Hd. apply Z.mod_small. rewrite Hk in Hr. lia.
Qed.

(* ------------------------------------------------------------------ *)
(** ** Division by a power of two *)

Section Pow2.
Variables k s : nat.
Hypothesis Hwk : width_ok c k.
Hypothesis Hws : width_ok c (s + 1).
Hypothesis Hrk : pow2 (rounded c k) <= p.
Hypothesis Hrs : pow2 (rounded c (s + 1)) <= p.

Definition dp (x : Z) (chk : bool) :=
  div_pow2_inner p c (enc p x) (const p (pow2 k)) (const p (pow2 k * pow2 s)) k s
    (const p (pow2 s)) chk.

(** What the gadget accepts, in integers. *)
Theorem div_pow2_acc x y :
  acc (dp x true) y <->
  exists q r,
    pow2 (s + 1) - pow2 (rounded c (s + 1)) <= q < pow2 (s + 1) /\
    pow2 k - pow2 (rounded c k) <= r < pow2 k /\
    enc p (pow2 k * pow2 s + x) = enc p (pow2 k * q + r) /\
    y = enc p (q - pow2 s).
Proof.
  unfold dp, div_pow2_inner, unconstrained_int_div, unconstrained_mod. cbv zeta.
  change (const p) with (enc p). rewrite !add_enc. split.
  - intros H. apply accepts_bind in H as (q & Hq & H). apply accepts_hint1 in Hq.
    apply accepts_bind in H as (r & Hr0 & H). apply accepts_hint1 in Hr0.
    apply accepts_bind in H as (u & He & H). apply accepts_assert_eq in He. destruct u.
    apply accepts_bind in H as (u & Hrr & H). destruct u.
    apply accepts_bind in H as (u & Hqq & H). destruct u. apply accepts_ret in H.
    rewrite <- (enc_id p r Hr0) in Hrr. rewrite <- (enc_id p q Hq) in Hqq.
    apply rc_enc in Hrr; auto. destruct Hrr as (r' & Hr' & Er).
    apply rc_enc in Hqq; auto. destruct Hqq as (q' & Hq' & Eq).
    rewrite (enc_id p r Hr0) in Er. rewrite (enc_id p q Hq) in Eq.
    exists q', r'. repeat split; auto; try lia.
    + rewrite He, Er, Eq, mul_enc, add_enc. reflexivity.
    + rewrite <- H, Eq, sub_enc. reflexivity.
  - intros (q & r & Hq & Hr & E & ->).
    apply accepts_bind. exists (enc p q). split; [apply accepts_hint1, enc_range, pp|].
    apply accepts_bind. exists (enc p r). split; [apply accepts_hint1, enc_range, pp|].
    apply accepts_bind. exists tt. split.
    { apply accepts_assert_eq. rewrite mul_enc, add_enc. exact E. }
    apply accepts_bind. exists tt. split; [apply rc_enc; eauto|].
    apply accepts_bind. exists tt. split; [apply rc_enc; eauto|].
    apply accepts_ret. rewrite sub_enc. reflexivity.
Qed.

Hypothesis Hbig : pow2 k * pow2 (rounded c (s + 1)) + pow2 (rounded c k) <= p.

(** Exactly the quotients floor(x / 2^k) + j with j below the slack factor. *)
Theorem div_pow2_values x y :
  - (pow2 k * pow2 s) <= x < pow2 k * pow2 s ->
  acc (dp x true) y <->
  exists j, 0 <= j < pow2 (rounded c k - k) /\
            x / pow2 k + j < pow2 s /\ y = enc p (x / pow2 k + j).
Proof.
  intros Hx. rewrite div_pow2_acc.
  pose proof (pow2_pos k) as Pk. pose proof (pow2_pos s) as Ps.
  pose proof (pow2_le _ _ (rounded_ge c k)) as Lk.
  pose proof (pow2_le _ _ (rounded_ge c (s + 1))) as Ls.
  assert (Es : pow2 (s + 1) = 2 * pow2 s) by (rewrite pow2_add; change (pow2 1) with 2; lia).
  assert (Ek : pow2 (rounded c k) = pow2 k * pow2 (rounded c k - k)).
  { rewrite <- pow2_add. f_equal. pose proof (rounded_ge c k). lia. }
  pose proof (pow2_pos (rounded c k - k)) as Pj.
  pose proof (Z.div_mod x (pow2 k) ltac:(lia)) as D.
  pose proof (Z.mod_pos_bound x (pow2 k) Pk) as M.
  set (A := pow2 k) in *. set (S := pow2 s) in *. set (J := pow2 (rounded c k - k)) in *.
  set (N := pow2 (rounded c (s + 1))) in *. set (Kp := pow2 (rounded c k)) in *.
  assert (Hq0 : - S <= x / A < S).
  { split; [apply Z.div_le_lower_bound; lia | apply Z.div_lt_upper_bound; lia]. }
  split.
  - intros (q & r & Hq & Hr & E & ->). rewrite Es in *.
    apply enc_inj in E; [|apply pp|nia].
    exists (q - S - x / A). replace (x / A + (q - S - x / A)) with (q - S) by ring.
    assert (Er : r = x mod A - A * (q - S - x / A)) by nia.
    split; [|split; [lia|reflexivity]].
    set (j := q - S - x / A) in *. split.
    + assert (- A < A * j) by lia. nia.
    + assert (A * j < A * J) by nia. nia.
  - intros (j & Hj & Hlt & ->).
    exists (x / A + j + S), (x mod A - A * j). rewrite Es.
    split; [nia|]. split; [nia|]. split.
    + f_equal. lia.
    + f_equal. ring.
Qed.

(** Sound and unique when the chunk width divides the divisor's exponent. *)
Theorem div_pow2_exact x y : (k mod c = 0)%nat ->
  - (pow2 k * pow2 s) <= x < pow2 k * pow2 s ->
  acc (dp x true) y <-> y = enc p (x / pow2 k).
Proof.
  intros Hd Hx. rewrite div_pow2_values; auto. rewrite (rounded_exact c k Hd), Nat.sub_diag.
  change (pow2 0) with 1. pose proof (pow2_pos k).
  split.
  - intros (j & Hj & _ & ->). replace j with 0 by lia. rewrite Z.add_0_r. reflexivity.
  - intros ->. exists 0. rewrite Z.add_0_r. repeat split; try lia.
    apply Z.div_lt_upper_bound; lia.
Qed.

(** Completeness: the honest hints satisfy the gadget. *)
Theorem div_pow2_run x chk : - (pow2 k * pow2 s) <= x < pow2 k * pow2 s ->
  rn (dp x chk) = Some (enc p (x / pow2 k)).
Proof.
  intros Hx. pose proof (pow2_pos k) as Pk. pose proof (pow2_pos s) as Ps.
  pose proof (pow2_le _ _ (rounded_ge c k)) as Lk.
  pose proof (pow2_le _ _ (rounded_ge c (s + 1))) as Ls.
  assert (Es : pow2 (s + 1) = 2 * pow2 s) by (rewrite pow2_add; change (pow2 1) with 2; lia).
  unfold dp, div_pow2_inner, unconstrained_int_div, unconstrained_mod. cbv zeta.
  change (const p) with (enc p). rewrite !add_enc.
  assert (Ed : enc p (pow2 k) = pow2 k) by (apply enc_id; nia).
  assert (En : enc p (pow2 k * pow2 s + x) = pow2 k * pow2 s + x) by (apply enc_id; nia).
  set (t := pow2 k * pow2 s + x) in *.
  assert (Ht : 0 <= t < pow2 k * pow2 (s + 1)) by (unfold t; rewrite Es; lia).
  assert (Hq : 0 <= t / pow2 k < pow2 (s + 1)).
  { split; [apply Z.div_pos; lia | apply Z.div_lt_upper_bound; lia]. }
  pose proof (Z.mod_pos_bound t (pow2 k) Pk) as Hm.
  assert (Hpq : t / pow2 k < p) by lia.
  assert (Hpm : t mod pow2 k < p) by lia.
  rewrite run_bind, (run_hint1 HIntDiv _ (t / pow2 k)).
  2:{ rewrite En, Ed. cbn. destruct (Z.eqb_spec (pow2 k) 0); [lia|reflexivity]. }
  rewrite run_bind, (run_hint1 HMod _ (t mod pow2 k)).
  2:{ rewrite En, Ed. cbn. destruct (Z.eqb_spec (pow2 k) 0); [lia|reflexivity]. }
  rewrite <- (enc_id p (t / pow2 k)) by lia.
  rewrite <- (enc_id p (t mod pow2 k)) by lia.
  rewrite run_bind, run_assert_eq.
  2:{ rewrite mul_enc, add_enc. f_equal. apply Z.div_mod. lia. }
  rewrite run_bind, run_range_check by auto.
  rewrite run_bind.
  assert (Ec : rn (if chk then range_check p c (enc p (t / pow2 k)) (s + 1) else Ret tt) = Some tt).
  { destruct chk; [apply run_range_check; auto | reflexivity]. }
  rewrite Ec. cbn [run]. rewrite sub_enc. do 2 f_equal.
  unfold t. rewrite Z.add_comm, Z.mul_comm, Z.div_add by lia. ring.
Qed.

End Pow2.

End D.
