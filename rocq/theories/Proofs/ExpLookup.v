From Coq Require Import ZArith List Bool Znumtheory Lia.
From Verif Require Import Spec.Numbers Model.Builder Model.Gadgets Model.Layers Proofs.Builder
  Proofs.RangeCheck Proofs.Gadgets Proofs.Division Proofs.Layers Proofs.Layers2.
Import ListNotations.
Local Open Scope Z_scope.

Lemma in_signed_table p f n row :
  In row (signed_table p f n) <->
  exists x, - pow2 (n - 1) <= x < pow2 n - pow2 (n - 1) /\ row = [enc p x; enc p (f x)].
Proof.
  unfold signed_table. rewrite in_map_iff. pose proof (pow2_pos n). split.
  - intros (i & <- & Hi). apply in_seq in Hi. exists (Z.of_nat i - pow2 (n - 1)). split; [lia|reflexivity].
  - intros (x & Hx & ->). exists (Z.to_nat (x + pow2 (n - 1))). split.
    + rewrite Z2Nat.id by lia. replace (x + pow2 (n - 1) - pow2 (n - 1)) with x by lia. reflexivity.
    + apply in_seq. lia.
Qed.

Lemma in_unsigned_table p f n row :
  In row (unsigned_table p f n) <-> exists x, 0 <= x < pow2 n /\ row = [enc p x; enc p (f x)].
Proof.
  unfold unsigned_table. rewrite in_map_iff. split.
  - intros (i & <- & Hi). apply in_seq in Hi. exists (Z.of_nat i). split; [lia|reflexivity].
  - intros (x & Hx & ->). exists (Z.to_nat x). split; [rewrite Z2Nat.id by lia; reflexivity|]. apply in_seq. lia.
Qed.

Section E.
Variable p : Z.
Hypothesis Hprime : prime p.
Variable c : nat.
Hypothesis Hc : (0 < c)%nat.
Variable tb : nat.
Variable E : Z -> Z.
Variable scale : Z.
Hypothesis Htb : (2 <= tb)%nat.
Hypothesis Hscale : 0 < scale.
Let cb := (tb / 2)%nat.
Let sb := bit_length scale.
Hypothesis Hwc : width_ok c cb.
Hypothesis Hws : width_ok c sb.
Hypothesis Hp1 : pow2 tb <= p.
Hypothesis Hp2 : pow2 (rounded c cb) <= p.
Hypothesis Hp3 : pow2 (rounded c sb) <= p.
Notation acc := (accepts p (table_rows c (exp_tables p tb E))).

(** The product of the two table values for the input [x]. *)
Definition exp_product (x : Z) : Z := E (x / pow2 cb * pow2 cb) * E (x mod pow2 cb).

Theorem verify_exp_acc xf y : 0 <= xf < p ->
  acc (verify_exp p c tb scale xf) y <->
  0 <= y < p /\ exists x r, - pow2 (tb - 1) <= x < pow2 (tb - 1) /\ xf = enc p x /\ rci c sb r /\
    enc p (y * scale + r) = enc p (exp_product x).
Proof.
  intros Hxf. pose proof (prime_ge_2 _ Hprime) as H2. pose proof (pow2_pos cb) as Pc. pose proof (pow2_pos tb) as Pt.
  assert (Hcb : (1 <= cb <= tb - 1)%nat).
  { unfold cb. pose proof (Nat.div_mod tb 2 ltac:(lia)). pose proof (Nat.mod_upper_bound tb 2 ltac:(lia)). lia. }
  assert (S1 : pow2 tb = 2 * pow2 (tb - 1)) by (rewrite <- pow2_S; f_equal; lia).
  assert (S2 : pow2 (tb - 1) = pow2 (tb - cb - 1) * pow2 cb) by (rewrite <- pow2_add; f_equal; lia).
  assert (S3 : pow2 (tb - cb) = 2 * pow2 (tb - cb - 1)) by (rewrite <- pow2_S; f_equal; lia).
  pose proof (pow2_pos (tb - cb - 1)) as Ph.
  unfold verify_exp. fold cb sb. cbv zeta.
  rewrite accepts_bind. split.
  - intros (xhu & Hh & H). apply accepts_hint1 in Hh. apply accepts_bind in H as (xl & Hl & H). apply accepts_hint1 in Hl.
    apply accepts_bind in H as ([] & He & H). apply accepts_assert_eq in He.
    apply accepts_bind in H as ([] & _ & H).
    apply accepts_bind in H as (eh & Heh & H). apply accepts_hint1 in Heh.
    apply accepts_bind in H as (el & Hel & H). apply accepts_hint1 in Hel.
    apply accepts_bind in H as ([] & Lh & H). apply -> accepts_lookup in Lh. cbn [table_rows exp_tables] in Lh. fold cb in Lh.
    apply accepts_bind in H as ([] & Ll & H). apply -> accepts_lookup in Ll. cbn [table_rows exp_tables] in Ll. fold cb in Ll.
    apply in_signed_table in Lh as (xh & Hxh & Eh). apply in_unsigned_table in Ll as (l & Hll & El).
    injection Eh as Eh1 Eh2. injection El as El1 El2.
    apply accepts_bind in H as (y0 & Hy & H). apply accepts_hint1 in Hy.
    apply accepts_bind in H as (rm & Hr & H). apply accepts_hint1 in Hr.
    apply accepts_bind in H as ([] & Hp & H). apply accepts_assert_eq in Hp.
    apply accepts_bind in H as ([] & Hrc & H). apply accepts_ret in H. subst y0.
    apply rc_of in Hrc; auto. destruct Hrc as (r & Hr' & ->).
    split; auto. exists (xh * pow2 cb + l), r.
    assert (EX : xf = enc p (xh * pow2 cb + l)).
    { rewrite <- (enc_id p xhu Hh) in Eh1, He. rewrite <- (enc_id p xf Hxf) in He |- *.
      change (const p (pow2 (tb - cb - 1))) with (enc p (pow2 (tb - cb - 1))) in Eh1.
      change (const p (pow2 cb)) with (enc p (pow2 cb)) in He.
      change (const p (pow2 (tb - 1))) with (enc p (pow2 (tb - 1))) in He.
      subst xl. rewrite sub_enc in Eh1. rewrite mul_enc, !add_enc in He. unfold enc in *.
      assert (Eu : xhu mod p = (xh + pow2 (tb - cb - 1)) mod p).
      { replace xhu with (xhu - pow2 (tb - cb - 1) + pow2 (tb - cb - 1)) at 1 by ring.
        rewrite Zplus_mod, Eh1, <- Zplus_mod. reflexivity. }
      replace xf with (xf + pow2 (tb - 1) - pow2 (tb - 1)) by ring.
      rewrite Zminus_mod, <- He, <- Zminus_mod.
      replace (xhu * pow2 cb + l - pow2 (tb - 1)) with (xhu * pow2 cb + (l - pow2 (tb - 1))) by ring.
      rewrite Zplus_mod, Zmult_mod, Eu, <- Zmult_mod, <- Zplus_mod. f_equal. rewrite S2. ring. }
    split; [nia|]. split; [exact EX|]. split; [auto|].
    unfold exp_product.
    assert (D1 : (xh * pow2 cb + l) / pow2 cb = xh) by (rewrite Z.div_add_l by lia; rewrite Z.div_small by lia; lia).
    assert (D2 : (xh * pow2 cb + l) mod pow2 cb = l)
      by (rewrite Z.add_comm, Z_mod_plus_full; apply Z.mod_small; lia).
    rewrite D1, D2. rewrite <- (enc_id p y Hy) in Hp. change (const p scale) with (enc p scale) in Hp.
    subst eh el. rewrite !mul_enc, add_enc in Hp. exact Hp.
  - intros (Hy & x & r & Hx & -> & Hr & Hp).
    assert (Hh : 0 <= x / pow2 cb + pow2 (tb - cb - 1) < pow2 (tb - cb)).
    { split.
      - assert (- pow2 (tb - cb - 1) <= x / pow2 cb) by (apply Z.div_le_lower_bound; nia). lia.
      - assert (x / pow2 cb < pow2 (tb - cb - 1)) by (apply Z.div_lt_upper_bound; nia). lia. }
    pose proof (Z.mod_pos_bound x (pow2 cb) Pc) as Hm. pose proof (Z.div_mod x (pow2 cb) ltac:(lia)) as Dm.
    exists (enc p (x / pow2 cb + pow2 (tb - cb - 1))). split; [apply accepts_hint1, enc_range; lia|].
    apply accepts_bind. exists (enc p (x mod pow2 cb)). split; [apply accepts_hint1, enc_range; lia|].
    change (const p (pow2 cb)) with (enc p (pow2 cb)). change (const p (pow2 (tb - 1))) with (enc p (pow2 (tb - 1))).
    change (const p (pow2 (tb - cb - 1))) with (enc p (pow2 (tb - cb - 1))). change (const p scale) with (enc p scale).
    apply accepts_bind. exists tt. split.
    { apply accepts_assert_eq. rewrite mul_enc, !add_enc. f_equal. rewrite S2. nia. }
    apply accepts_bind. exists tt. split; [apply rc_slack; auto; apply rci_full; auto|].
    apply accepts_bind. exists (enc p (E (x / pow2 cb * pow2 cb))). split; [apply accepts_hint1, enc_range; lia|].
    apply accepts_bind. exists (enc p (E (x mod pow2 cb))). split; [apply accepts_hint1, enc_range; lia|].
    rewrite sub_enc. replace (x / pow2 cb + pow2 (tb - cb - 1) - pow2 (tb - cb - 1)) with (x / pow2 cb) by ring.
    apply accepts_bind. exists tt. split.
    { apply accepts_lookup. cbn [table_rows exp_tables]. fold cb. apply in_signed_table.
      exists (x / pow2 cb). split; [lia|reflexivity]. }
    apply accepts_bind. exists tt. split.
    { apply accepts_lookup. cbn [table_rows exp_tables]. fold cb. apply in_unsigned_table.
      exists (x mod pow2 cb). split; [lia|reflexivity]. }
    apply accepts_bind. exists y. split; [apply accepts_hint1; auto|].
    apply accepts_bind. exists (enc p r). split; [apply accepts_hint1, enc_range; lia|].
    apply accepts_bind. exists tt. split.
    { apply accepts_assert_eq. rewrite <- (enc_id p y Hy). rewrite !mul_enc, add_enc. exact Hp. }
    apply accepts_bind. exists tt. split; [apply rc_slack; auto|apply accepts_ret; auto].
Qed.

(** With an extra range check on the result the remainder is still too wide:
    exactly the quotients floor(P/scale) - j such that the remainder
    P mod scale + j*scale passes are accepted. *)
Theorem verify_exp_small x Y nb : - pow2 (tb - 1) <= x < pow2 (tb - 1) ->
  0 <= Y < pow2 nb -> 0 <= exp_product x -> exp_product x + pow2 (rounded c sb) + scale * pow2 nb <= p ->
  acc (verify_exp p c tb scale (enc p x)) (enc p Y) <->
  rci c sb (exp_product x - Y * scale).
Proof.
  intros Hx HY HP Hb. pose proof (prime_ge_2 _ Hprime) as H2.
  pose proof (pow2_pos (rounded c sb)) as Ps. pose proof (pow2_pos nb).
  pose proof (pow2_le _ _ (rounded_ge c sb)) as Ls. pose proof (pow2_pos sb).
  assert (S1 : pow2 tb = 2 * pow2 (tb - 1)) by (rewrite <- pow2_S; f_equal; lia).
  assert (EY : enc p Y = Y) by (apply enc_id; nia).
  rewrite verify_exp_acc by (apply enc_range; lia). rewrite EY. split.
  - intros (_ & x' & r & Hx' & Ex & Hr & Ep). apply enc_inj in Ex; [|lia|lia]. subst x'.
    apply enc_inj in Ep; [|lia|unfold rci in Hr; nia]. replace (exp_product x - Y * scale) with r by lia. auto.
  - intros Hr. split; [nia|]. exists x, (exp_product x - Y * scale).
    split; auto. split; auto. split; auto. f_equal. ring.
Qed.
End E.
