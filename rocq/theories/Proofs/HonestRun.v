From Coq Require Import ZArith List Bool Znumtheory Lia.
From Verif Require Import Spec.Numbers Spec.HonestProver Model.Builder Model.Gadgets Proofs.Builder
  Proofs.RangeCheck Proofs.Gadgets Proofs.Division Proofs.Layers.
Import ListNotations.
Local Open Scope Z_scope.

Section R.
Variable p : Z.
Hypothesis Hprime : prime p.
Variable c : nat.
Hypothesis Hc : (0 < c)%nat.
Variable F : nat -> list (list Z).
Variable G : nat -> list Z -> nat -> option (list Z).
Notation rn := (run (honest_with G) (table_rowsb c F)).

Lemma rn_custom k ins v : G k ins 1 = Some [v] -> rn (hint1 (HCustom k) ins) = Some v.
Proof. intros E. unfold hint1. cbn [run honest_with]. rewrite E. reflexivity. Qed.
Lemma rn_customn k ins n vs : G k ins n = Some vs -> length vs = n -> rn (hintn (HCustom k) ins n) = Some vs.
Proof. intros E L. unfold hintn. cbn [run honest_with]. rewrite E, L, Nat.eqb_refl. reflexivity. Qed.
Lemma rn_eq x y : x = y -> rn (assert_eq x y) = Some tt.
Proof. intros ->. cbn. rewrite Z.eqb_refl. reflexivity. Qed.
Lemma rn_lookups ws : Forall (fun w => 0 <= w < pow2 c) ws ->
  rn (forM (fun w => lookup TRange [w]) ws) = Some tt.
Proof.
  induction 1 as [|w ws Hw H IH]; [reflexivity|].
  cbn [forM]. rewrite run_bind. cbn [lookup run table_rowsb].
  destruct (Z.leb_spec 0 w); [|lia]. destruct (Z.ltb_spec w (pow2 c)); [|lia]. exact IH.
Qed.

(** The honest prover passes a range check exactly on the accepted interval. *)
Theorem rn_rc z n : width_ok c n -> pow2 (rounded c n) <= p -> rci c n z ->
  rn (range_check p c (enc p z) n) = Some tt.
Proof.
  intros (Hn & Hn128) Hr Hz. pose proof (prime_ge_2 _ Hprime) as Hp2. assert (Hp : 0 < p) by lia.
  unfold rci in Hz.
  pose proof (pow2_le _ _ (rounded_ge c n)) as Hle0.
  assert (Hs : shifted_value p c (enc p z) n = z + (pow2 (rounded c n) - pow2 n)).
  { rewrite shifted_value_spec by (auto; apply enc_range; auto).
    unfold enc. rewrite Zplus_mod_idemp_l. apply Z.mod_small. lia. }
  unfold range_check.
  destruct (Nat.eqb_spec n 0); [lia|]. destruct (Nat.ltb_spec 128 n); [lia|].
  unfold rangeproof. destruct (Nat.ltb_spec 128 n); [lia|].
  destruct (Nat.leb_spec n c) as [Hle|Hgt].
  - unfold rangeproof_onechunk. destruct (Nat.ltb_spec c n); [lia|].
    cbn [lookup run table_rowsb]. rewrite Hs.
    assert (E : rounded c n = c).
    { unfold rounded, range_shift. destruct (Nat.eq_dec n c) as [->|].
      + rewrite Nat.mod_same by lia. cbn. lia.
      + rewrite Nat.mod_small by lia. destruct (Nat.eqb_spec n 0); lia. }
    rewrite E in *.
    destruct (Z.leb_spec 0 (z + (pow2 c - pow2 n))); [|lia].
    destruct (Z.ltb_spec (z + (pow2 c - pow2 n)) (pow2 c)); [reflexivity|lia].
  - assert (Hguard : (n =? 128)%nat && negb (n mod c =? 0)%nat = false).
    { destruct (Nat.eqb_spec n 128); [|reflexivity].
      destruct (Nat.eqb_spec (n mod c) 0); [reflexivity|].
      exfalso. destruct (Hn128 e); lia. }
    rewrite Hguard. fold (rounded c n). cbv zeta.
    destruct (rounded_mult c n Hc) as (k & Hk).
    assert (Hkc : (rounded c n / c = k)%nat) by (rewrite Hk; apply Nat.div_mul; lia).
    assert (Hk0 : (0 < k)%nat).
    { destruct k; [|lia]. pose proof (rounded_ge c n). lia. }
    rewrite Hkc, Hs, run_bind.
    set (v := z + (pow2 (rounded c n) - pow2 n)) in *.
    assert (Hv : 0 <= v < pow2 (k * c)) by (unfold v; rewrite <- Hk; lia).
    destruct (digits_of_spec c k v Hv) as (Hl & Hf & Hd).
    set (ws := digits_of (pow2 c) v k) in *.
    assert (Hh : honest_hint HRangeProof [const p (zn (rounded c n)); const p (zn c); v] k = Some ws).
    { assert (E1 : const p (zn (rounded c n)) = zn (rounded c n)).
      { apply Z.mod_small. pose proof (lt_pow2 (rounded c n)). unfold zn. lia. }
      assert (E2 : const p (zn c) = zn c).
      { apply Z.mod_small. pose proof (lt_pow2 (rounded c n)). pose proof (rounded_ge c n).
        unfold zn. lia. }
      rewrite E1, E2. cbn [honest_hint].
      destruct (Z.eqb_spec (zn c) 0); [unfold zn in *; lia|].
      assert (E3 : zn (rounded c n) / zn c = Z.of_nat k).
      { unfold zn. rewrite Hk, Nat2Z.inj_mul, Z.div_mul; lia. }
      rewrite E3. destruct (Z.ltb_spec (Z.of_nat k) (Z.of_nat k)); [lia|].
      rewrite Nat2Z.id, Nat.sub_diag. cbn [repeat]. rewrite app_nil_r. reflexivity. }
    unfold hintn. cbn [run honest_with]. rewrite Hh, Hl, Nat.eqb_refl. cbn [run].
    rewrite run_bind, rn_eq.
    + rewrite firstn_all2 by lia. apply rn_lookups; auto.
    + destruct ws as [|w ws']; [cbn in Hl; lia|]. cbn [hd tl].
      assert (0 <= w < p).
      { assert (0 <= w < pow2 c) by (inversion Hf; auto). rewrite Hk in Hr.
        pose proof (pow2_le c (k * c) ltac:(nia)). lia. }
      rewrite recompose_spec, Nat.mul_1_r by auto.
      change (w + pow2 c * dval c ws') with (dval c (w :: ws')).
      rewrite Hd. apply Z.mod_small. rewrite Hk in Hr. lia.
Qed.

Lemma rn_with A (m : prog A) a : run honest_hint (table_rowsb c F) m = Some a -> rn m = Some a.
Proof using.
  induction m as [b|cd|h ins n k IH|x y k IH|t row k IH]; cbn [run]; auto.
  - destruct (honest_hint h ins n) as [outs|] eqn:E; [|discriminate].
    assert (E' : honest_with G h ins n = Some outs) by (destruct h; auto; discriminate E).
    rewrite E'. destruct (length outs =? n)%nat; [apply IH|discriminate].
  - destruct (x =? y); auto; discriminate.
  - destruct (table_rowsb c F t row); auto; discriminate.
Qed.

(** A range check passed by the honest prover is accepted. *)
Lemma lookups_acc ws u : rn (forM (fun w => lookup TRange [w]) ws) = Some u ->
  Forall (fun w => 0 <= w < pow2 c) ws /\ accepts p (table_rows c F) (forM (fun w => lookup TRange [w]) ws) tt.
Proof using.
  induction ws as [|w ws IH]; cbn [forM]; [intros; split; [constructor|reflexivity]|].
  rewrite run_bind. cbn [lookup run table_rowsb].
  destruct (Z.leb_spec 0 w); [|discriminate]. destruct (Z.ltb_spec w (pow2 c)); [|discriminate]. cbn.
  intros E. apply IH in E as (E1 & E2). split; [constructor; auto|]. split; auto.
Qed.
Theorem rc_run_acc z n u : pow2 c <= p -> rn (range_check p c z n) = Some u ->
  accepts p (table_rows c F) (range_check p c z n) tt.
Proof using Hc.
  intros Hpc. unfold range_check, rangeproof, rangeproof_onechunk.
  destruct (n =? 0)%nat; [discriminate|]. destruct (128 <? n)%nat; [discriminate|].
  destruct (n <=? c)%nat.
  - destruct (c <? n)%nat; [discriminate|]. cbn [lookup run table_rowsb].
    destruct (Z.leb_spec 0 (shifted_value p c z n)); [|discriminate].
    destruct (Z.ltb_spec (shifted_value p c z n) (pow2 c)); [|discriminate]. intros _. cbn. auto.
  - destruct ((n =? 128)%nat && negb (n mod c =? 0)%nat); [discriminate|]. cbv zeta.
    rewrite run_bind. unfold hintn at 1. cbn [run].
    destruct (honest_with G HRangeProof _ _) as [ws|]; [|discriminate].
    destruct (Nat.eqb_spec (length ws) ((n + range_shift c n) / c)) as [El|]; [|discriminate].
    cbn [run]. rewrite run_bind. cbn [assert_eq run].
    destruct (Z.eqb_spec (recompose p c 1 (hd 0 ws) (tl ws)) (shifted_value p c z n)) as [Ee|]; [|discriminate].
    cbn [run]. intros E. apply lookups_acc in E as (E1 & E2).
    rewrite firstn_all2 in E1 by lia.
    cbn [bind hintn accepts]. exists ws. split; [auto|]. split.
    + eapply Forall_impl; [|exact E1]. cbn. intros; lia.
    + split; auto.
Qed.

(** The builtin division hints on canonical values. *)
Lemma rn_div x y : 0 < y < p -> 0 <= x < p -> rn (unconstrained_int_div x y) = Some (x / y).
Proof. intros. unfold unconstrained_int_div, hint1. cbn. destruct (Z.eqb_spec y 0); [lia|reflexivity]. Qed.
Lemma rn_mod x y : 0 < y < p -> 0 <= x < p -> rn (unconstrained_mod x y) = Some (x mod y).
Proof. intros. unfold unconstrained_mod, hint1. cbn. destruct (Z.eqb_spec y 0); [lia|reflexivity]. Qed.
Lemma rn_ge x y : rn (unconstrained_greater_eq x y) = Some (if y <=? x then 1 else 0).
Proof. unfold unconstrained_greater_eq, hint1. cbn. unfold b2z. reflexivity. Qed.
End R.

(** ** Decomposing acceptance *)
Ltac a_hint H v Hv := apply accepts_bind in H as (v & Hv & H); apply accepts_hint1 in Hv.
Ltac a_rc H Hr := apply accepts_bind in H as ([] & Hr & H).
Ltac a_eq H He := apply accepts_bind in H as ([] & He & H); apply accepts_assert_eq in He.
Ltac g_hint v := apply accepts_bind; exists v; split; [apply accepts_hint1|].
Ltac g_unit := apply accepts_bind; exists tt; split.
