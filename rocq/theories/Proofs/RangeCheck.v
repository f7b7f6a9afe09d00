From Coq Require Import ZArith List Bool Lia Znumtheory.
From Verif Require Import Model.Builder Model.Gadgets Proofs.Builder.
Import ListNotations.
Local Open Scope Z_scope.

Ltac Zify.zify_post_hook ::= idtac.

Lemma pow2_pos n : 0 < pow2 n.
Proof. unfold pow2. apply Z.pow_pos_nonneg; unfold zn; lia. Qed.

Lemma pow2_S n : pow2 (S n) = 2 * pow2 n.
Proof. unfold pow2, zn. rewrite Nat2Z.inj_succ, Z.pow_succ_r by lia. reflexivity. Qed.

Lemma pow2_add n m : pow2 (n + m) = pow2 n * pow2 m.
Proof. unfold pow2, zn. rewrite Nat2Z.inj_add, Z.pow_add_r by lia. reflexivity. Qed.

Lemma pow2_le n m : (n <= m)%nat -> pow2 n <= pow2 m.
Proof. intros. unfold pow2, zn. apply Z.pow_le_mono_r; lia. Qed.

Lemma pow2_lt n m : (n < m)%nat -> pow2 n < pow2 m.
Proof. intros. unfold pow2, zn. apply Z.pow_lt_mono_r; lia. Qed.

(** The width actually enforced: [n] rounded up to a multiple of [c]. *)
Definition rounded (c n : nat) : nat := (n + range_shift c n)%nat.

Lemma rounded_ge c n : (n <= rounded c n)%nat.
Proof. unfold rounded; lia. Qed.

Lemma rounded_mult c n : (0 < c)%nat -> exists k, rounded c n = (k * c)%nat.
Proof.
  intros Hc. unfold rounded, range_shift.
  pose proof (Nat.div_mod n c ltac:(lia)) as D.
  pose proof (Nat.mod_upper_bound n c ltac:(lia)).
  destruct (Nat.eqb_spec (n mod c) 0).
  - exists (n / c)%nat. lia.
  - exists (S (n / c))%nat. nia.
Qed.

Lemma rounded_exact c n : (n mod c = 0)%nat -> rounded c n = n.
Proof. intros H. unfold rounded, range_shift. rewrite H. cbn. lia. Qed.

Lemma rounded_lt c n : (0 < c)%nat -> (n mod c <> 0)%nat -> (n < rounded c n)%nat.
Proof.
  intros Hc H. unfold rounded, range_shift.
  pose proof (Nat.mod_upper_bound n c ltac:(lia)).
  destruct (Nat.eqb_spec (n mod c) 0); lia.
Qed.

(** little-endian value of digits in base 2^c *)
Fixpoint dval (c : nat) (ws : list Z) : Z :=
  match ws with [] => 0 | w :: r => w + pow2 c * dval c r end.

Lemma dval_bound c ws : Forall (fun w => 0 <= w < pow2 c) ws ->
  0 <= dval c ws < pow2 (length ws * c).
Proof.
  pose proof (pow2_pos c).
  induction 1 as [|w ws Hw Hws IH]; cbn [dval length].
  - cbn. lia.
  - rewrite Nat.mul_succ_l, Nat.add_comm, pow2_add. nia.
Qed.

Lemma digits_of_spec c n x : 0 <= x < pow2 (n * c) ->
  length (digits_of (pow2 c) x n) = n /\
  Forall (fun w => 0 <= w < pow2 c) (digits_of (pow2 c) x n) /\
  dval c (digits_of (pow2 c) x n) = x.
Proof.
  pose proof (pow2_pos c).
  revert x. induction n as [|n IH]; intros x Hx; cbn [digits_of].
  - cbn in Hx. cbn. split; [|split]; auto. lia.
  - rewrite Nat.mul_succ_l, Nat.add_comm, pow2_add in Hx.
    destruct (IH (x / pow2 c)) as (Hl & Hf & Hd).
    { split; [apply Z.div_pos; lia |]. apply Z.div_lt_upper_bound; lia. }
    cbn [length dval]. split; [lia|]. split.
    + constructor; auto. apply Z.mod_pos_bound; lia.
    + rewrite Hd. pose proof (Z.div_mod x (pow2 c) ltac:(lia)). lia.
Qed.

Section R.
Variable p : Z.
Hypothesis Hp : 0 < p.
Variable c : nat.
Hypothesis Hc : (0 < c)%nat.
Variable F : nat -> list (list Z).
Notation acc := (accepts p (table_rows c F)).

Lemma recompose_spec i sum ws : 0 <= sum < p ->
  recompose p c i sum ws = (sum + pow2 (c * i) * dval c ws) mod p.
Proof.
  revert i sum. induction ws as [|w ws IH]; intros i sum Hs; cbn [recompose dval].
  - rewrite Z.mul_0_r, Z.add_0_r, Z.mod_small; auto.
  - rewrite IH by (unfold add; apply Z.mod_pos_bound; lia).
    unfold add, mul, const.
    replace (2 ^ (zn c * zn i)) with (pow2 (c * i)) by (unfold pow2, zn; f_equal; lia).
    rewrite Nat.mul_succ_r, pow2_add.
    rewrite Zmult_mod_idemp_r.
    rewrite Zplus_mod_idemp_r. rewrite Zplus_mod_idemp_l. f_equal. ring.
Qed.

Lemma shifted_value_spec a n : 0 <= a < p ->
  shifted_value p c a n = (a + (pow2 (rounded c n) - pow2 n)) mod p.
Proof.
  intros Ha. unfold shifted_value, rounded.
  destruct (Nat.eqb_spec (n mod c) 0) as [E|E].
  - unfold range_shift. rewrite E. cbn [Nat.eqb]. rewrite Nat.add_0_r, Z.sub_diag, Z.add_0_r.
    rewrite Z.mod_small; auto.
  - unfold add, mul, const.
    rewrite <- Zmult_mod, Zplus_mod_idemp_r. f_equal.
    rewrite pow2_add. ring.
Qed.

Lemma acc_digits ws :
  acc (forM (fun w => lookup TRange [w]) ws) tt <-> Forall (fun w => 0 <= w < pow2 c) ws.
Proof.
  rewrite accepts_forM. split; intros H; eapply Forall_impl; [|exact H| |exact H]; cbn.
  - intros a (H1 & _); auto.
  - intros a H1; auto.
Qed.

(** Widths the range check accepts at build time. *)
Definition width_ok (n : nat) : Prop :=
  (0 < n <= 128)%nat /\ (n = 128%nat -> (n <= c \/ n mod c = 0)%nat).

(** Exact characterisation of the lookup range check, whatever the width. *)
Theorem range_check_iff a n : width_ok n -> pow2 (rounded c n) <= p -> 0 <= a < p ->
  acc (range_check p c a n) tt <->
  (a + (pow2 (rounded c n) - pow2 n)) mod p < pow2 (rounded c n).
Proof.
  intros (Hn & Hn128) Hr Ha. unfold range_check.
  destruct (Nat.eqb_spec n 0); [lia|].
  destruct (Nat.ltb_spec 128 n); [lia|].
  unfold rangeproof. destruct (Nat.ltb_spec 128 n); [lia|].
  pose proof (shifted_value_spec a n Ha) as Hs.
  assert (Hsb : 0 <= shifted_value p c a n < p).
  { rewrite Hs. apply Z.mod_pos_bound; auto. }
  destruct (Nat.leb_spec n c) as [Hle|Hgt].
  - unfold rangeproof_onechunk. destruct (Nat.ltb_spec c n); [lia|].
    rewrite accepts_lookup. cbn [table_rows]. rewrite <- Hs.
    replace (rounded c n) with c; [lia|].
    unfold rounded, range_shift. destruct (Nat.eq_dec n c) as [->|].
    + rewrite Nat.mod_same by lia. cbn. lia.
    + rewrite Nat.mod_small by lia. destruct (Nat.eqb_spec n 0); lia.
  - assert (Hguard : (n =? 128)%nat && negb (n mod c =? 0)%nat = false).
    { destruct (Nat.eqb_spec n 128); [|reflexivity].
      destruct (Nat.eqb_spec (n mod c) 0); [reflexivity|].
      exfalso. destruct (Hn128 e); lia. }
    rewrite Hguard. fold (rounded c n).
    destruct (rounded_mult c n Hc) as (k & Hk).
    assert (Hkc : (rounded c n / c = k)%nat) by (rewrite Hk; apply Nat.div_mul; lia).
    assert (Hk0 : (0 < k)%nat).
    { destruct k; [|lia]. pose proof (rounded_ge c n). lia. }
    rewrite Hkc, accepts_bind, <- Hs, Hk.
    split.
    + intros (ws & H1 & H2). apply accepts_hintn in H1 as (Hl & Hf).
      rewrite accepts_bind in H2. destruct H2 as (u & H2 & H3).
      apply accepts_assert_eq in H2.
      rewrite firstn_all2 in H3 by lia. apply acc_digits in H3.
      destruct ws as [|w ws]; [cbn in Hl; lia|]. cbn [hd tl] in H2.
      assert (Hw0 : 0 <= w < p) by (inversion Hf; auto).
      rewrite recompose_spec, Nat.mul_1_r in H2 by auto.
      change (w + pow2 c * dval c ws) with (dval c (w :: ws)) in H2.
      pose proof (dval_bound _ _ H3) as B. rewrite Hl in B. rewrite Hk in Hr.
      rewrite Z.mod_small in H2 by lia. lia.
    + intros Hlt.
      destruct (digits_of_spec c k (shifted_value p c a n)) as (Hl & Hf & Hd); [lia|].
      set (ws := digits_of (pow2 c) (shifted_value p c a n) k) in *.
      exists ws. split.
      { apply accepts_hintn. split; auto. eapply Forall_impl; [|exact Hf].
        cbn. intros w Hw. rewrite Hk in Hr. pose proof (pow2_le c (k * c) ltac:(nia)). lia. }
      rewrite accepts_bind. exists tt. split.
      * apply accepts_assert_eq. destruct ws as [|w ws']; [cbn in Hl; lia|]. cbn [hd tl].
        assert (0 <= w < p).
        { assert (0 <= w < pow2 c) by (inversion Hf; auto).
          rewrite Hk in Hr. pose proof (pow2_le c (k * c) ltac:(nia)). lia. }
        rewrite recompose_spec, Nat.mul_1_r by auto.
        change (w + pow2 c * dval c ws') with (dval c (w :: ws')).
        rewrite Hd. apply Z.mod_small; auto.
      * rewrite firstn_all2 by lia. apply acc_digits; auto.
Qed.

(** When the chunk width divides the bit width the check is exact. *)
Theorem range_check_exact a n : width_ok n -> (n mod c = 0)%nat -> pow2 n <= p -> 0 <= a < p ->
  acc (range_check p c a n) tt <-> a < pow2 n.
Proof.
  intros Hw Hd Hn Ha. rewrite range_check_iff; auto; rewrite (rounded_exact c n Hd); auto.
  rewrite Z.sub_diag, Z.add_0_r, Z.mod_small; auto. reflexivity.
Qed.

(** In general: the accepted residues are those of the integers in
    [2^n - 2^n', 2^n). *)
Theorem range_check_interval a n : width_ok n -> pow2 (rounded c n) <= p -> 0 <= a < p ->
  acc (range_check p c a n) tt <->
  exists x, pow2 n - pow2 (rounded c n) <= x < pow2 n /\ a = x mod p.
Proof.
  intros Hw Hr Ha. rewrite range_check_iff; auto.
  pose proof (pow2_le _ _ (rounded_ge c n)). pose proof (pow2_pos n).
  set (R := pow2 (rounded c n)) in *. set (N := pow2 n) in *. split.
  - intros H1. exists ((a + (R - N)) mod p - (R - N)).
    pose proof (Z.mod_pos_bound (a + (R - N)) p Hp). split; [lia|].
    rewrite Zminus_mod_idemp_l. replace (a + (R - N) - (R - N)) with a by ring.
    symmetry. apply Z.mod_small; auto.
  - intros (x & Hx & ->). rewrite Zplus_mod_idemp_l.
    rewrite Z.mod_small; lia.
Qed.

End R.
