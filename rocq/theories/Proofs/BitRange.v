(** The bit-decomposition range check. *)
From Coq Require Import ZArith List Bool Znumtheory Lia.
From Verif Require Import Spec.Numbers Model.Builder Model.Gadgets Proofs.Builder Proofs.RangeCheck
  Proofs.Gadgets Proofs.Division.
Import ListNotations.
Local Open Scope Z_scope.

Section B.
Variable p : Z.
Hypothesis Hprime : prime p.
Variable c : nat.
Variable F : nat -> list (list Z).
Notation acc := (accepts p (table_rows c F)).
Notation rn := (run honest_hint (table_rowsb c F)).

Definition bit (b : Z) : Prop := b = 0 \/ b = 1.

Lemma pge2 : 2 <= p. Proof. apply prime_ge_2; auto. Qed.

Lemma extract_any cur n bs :
  acc (extract_bits cur n) bs <-> length bs = n /\ Forall (fun v => 0 <= v < p) bs.
Proof.
  pose proof pge2 as H2.
  revert cur bs. induction n as [|n IH]; intros cur bs; cbn [extract_bits].
  - rewrite accepts_ret. split; [intros <-; auto|]. destruct bs; [auto|cbn; intuition discriminate].
  - rewrite accepts_bind. split.
    + intros (b & Hb & H). apply accepts_hint1 in Hb. apply accepts_bind in H as (nx & Hn & H).
      apply accepts_bind in H as (r & Hr & H). apply IH in Hr. apply accepts_ret in H. subst bs.
      cbn. intuition.
    + intros (Hl & Hf). destruct bs as [|b bs]; [discriminate|]. inversion Hf; subst.
      exists b. split; [apply accepts_hint1; auto|].
      apply accepts_bind. exists 0. split; [apply accepts_hint1; lia|].
      apply accepts_bind. exists bs. split; [apply IH; cbn in Hl; auto|]. apply accepts_ret. auto.
Qed.

Lemma recon_step i a b d :
  (add p a (mul p (const p (pow2 i)) b) + pow2 (S i) * d) mod p = (a + pow2 i * (b + pow2 1 * d)) mod p.
Proof.
  unfold add, mul, const. rewrite Zmult_mod_idemp_l, Zplus_mod_idemp_r, Zplus_mod_idemp_l.
  rewrite pow2_S. change (pow2 1) with 2. f_equal. ring.
Qed.

Lemma recon_acc i a bs r : 0 <= a < p -> Forall (fun v => 0 <= v < p) bs ->
  acc (reconstruct_loop p i a bs) r <-> Forall bit bs /\ r = (a + pow2 i * dval 1 bs) mod p.
Proof.
  pose proof pge2 as H2.
  revert i a. induction bs as [|b bs IH]; intros i a Ha Hf.
  - cbn [reconstruct_loop dval]. rewrite accepts_ret, Z.mul_0_r, Z.add_0_r, Z.mod_small by auto.
    intuition.
  - inversion Hf; subst. cbn [reconstruct_loop dval]. rewrite accepts_bind. split.
    + intros ([] & Hb & H). apply accepts_assert_bool in Hb; auto.
      apply IH in H; auto; [|apply Z.mod_pos_bound; lia]. destruct H as (Hbs & ->).
      split; [constructor; auto|]. apply recon_step.
    + intros (Hb & ->). inversion Hb; subst. exists tt. split; [apply accepts_assert_bool; auto|].
      apply IH; auto; [apply Z.mod_pos_bound; lia|]. split; auto.
      symmetry. apply recon_step.
Qed.

Lemma bits_unique bs : Forall bit bs -> bs = bits_of (dval 1 bs) (length bs).
Proof.
  induction 1 as [|b bs Hb Hbs IH]; [reflexivity|].
  cbn [dval length bits_of]. change (pow2 1) with 2.
  rewrite (Z.mul_comm 2). rewrite Z_mod_plus_full, Z.div_add by lia.
  destruct Hb as [-> | ->]; cbn [Z.modulo Z.div]; cbn; f_equal; auto.
Qed.

Lemma bits_bit x n : Forall bit (bits_of x n).
Proof.
  revert x. induction n; intros; cbn; constructor; auto.
  pose proof (Z.mod_pos_bound x 2). unfold bit. lia.
Qed.

Lemma bits_len x n : length (bits_of x n) = n.
Proof. revert x. induction n; intros; cbn; auto. Qed.

Lemma bits_val x n : 0 <= x < pow2 n -> dval 1 (bits_of x n) = x.
Proof.
  revert x. induction n as [|n IH]; intros x Hx.
  - cbn. change (pow2 0) with 1 in Hx. lia.
  - cbn [bits_of dval]. change (pow2 1) with 2. rewrite pow2_S in Hx.
    rewrite IH; [pose proof (Z.div_mod x 2); lia|].
    split; [apply Z.div_pos; lia|]. apply Z.div_lt_upper_bound; lia.
Qed.

Lemma bit_dval_bound bs : Forall bit bs -> 0 <= dval 1 bs < pow2 (length bs).
Proof.
  intros H. rewrite <- (Nat.mul_1_r (length bs)). apply dval_bound.
  eapply Forall_impl; [|exact H]. intros b [->| ->]; change (pow2 1) with 2; lia.
Qed.

(** Any accepted bit vector is the binary expansion of the value. *)
Theorem bit_range_exact v n bs : (0 < n < 256)%nat -> pow2 n < p / 2 -> 0 <= v < p ->
  acc (range_check_pow2_unsigned p v n) bs <-> v < pow2 n /\ bs = bits_of v n.
Proof.
  intros Hn Hs Hv. pose proof pge2 as H2.
  assert (Hs' : pow2 n < p).
  { eapply Z.lt_le_trans; [exact Hs|]. apply Z.div_le_upper_bound; lia. }
  unfold range_check_pow2_unsigned, unconstrained_to_bits.
  destruct (Nat.eqb_spec n 0); [lia|]. destruct (Nat.leb_spec 256 n); [lia|].
  destruct (Z.leb_spec (p / 2) (pow2 n)); [lia|].
  rewrite accepts_bind. split.
  - intros (bits & Hb & Hz). apply extract_any in Hb as (Hl & Hf).
    apply accepts_bind in Hz as (rc & Hrc & Hz). apply accepts_bind in Hz as ([] & Heq & Hz).
    apply accepts_assert_eq in Heq. apply accepts_ret in Hz. subst bits.
    unfold constrained_reconstruct_from_bits in Hrc. destruct (256 <? length bs)%nat; [contradiction|].
    apply recon_acc in Hrc; auto; [|apply Z.mod_pos_bound; lia]. destruct Hrc as (Hbit & ->).
    pose proof (bit_dval_bound _ Hbit) as Hd. rewrite Hl in Hd.
    unfold const in Heq. rewrite Zmod_0_l in Heq.
    change (pow2 0) with 1 in Heq. rewrite Z.add_0_l, Z.mul_1_l, Z.mod_small in Heq by lia.
    subst v. split; [lia|]. rewrite <- Hl. apply bits_unique; auto.
  - intros (Hlt & ->). exists (bits_of v n). split.
    + apply extract_any. split; [apply bits_len|].
      eapply Forall_impl; [|apply bits_bit]. intros b [->| ->]; lia.
    + unfold constrained_reconstruct_from_bits. rewrite bits_len.
      destruct (Nat.ltb_spec 256 n); [lia|].
      apply accepts_bind. exists v. split.
      * apply recon_acc; [apply Z.mod_pos_bound; lia| |].
        { eapply Forall_impl; [|apply bits_bit]. intros b [->| ->]; lia. }
        split; [apply bits_bit|]. rewrite bits_val by lia. unfold const. rewrite Zmod_0_l.
        change (pow2 0) with 1. rewrite Z.add_0_l, Z.mul_1_l, Z.mod_small; lia.
      * apply accepts_bind. exists tt. split; [apply accepts_assert_eq; auto|]. apply accepts_ret. auto.
Qed.

Lemma extract_run x n : 0 <= x -> rn (extract_bits x n) = Some (bits_of x n).
Proof.
  revert x. induction n as [|n IH]; intros x Hx; [reflexivity|].
  cbn [extract_bits bits_of]. rewrite run_bind.
  replace (rn (unconstrained_bit_and x 1)) with (Some (x mod 2)).
  2:{ unfold unconstrained_bit_and, hint1. cbn [run honest_hint length Nat.eqb hd]. f_equal.
      change 1 with (Z.ones 1). rewrite (Z.land_ones x 1) by lia. reflexivity. }
  rewrite run_bind. replace (rn (unconstrained_shift_r x 1)) with (Some (x / 2)) by reflexivity.
  rewrite run_bind, IH by (apply Z.div_pos; lia). reflexivity.
Qed.

Lemma recon_run i a bs : Forall bit bs -> exists r, rn (reconstruct_loop p i a bs) = Some r /\
  (0 <= a < p -> r = (a + pow2 i * dval 1 bs) mod p).
Proof.
  pose proof pge2 as H2. intros H. revert i a. induction H as [|b bs Hb Hbs IH]; intros i a.
  - exists a. split; [reflexivity|]. intros Ha. cbn. rewrite Z.mul_0_r, Z.add_0_r, Z.mod_small; auto.
  - cbn [reconstruct_loop]. rewrite run_bind.
    assert (Hab : rn (assert_bool p b) = Some tt).
    { unfold assert_bool, mul, sub. destruct Hb as [-> | ->]; cbn; rewrite ?Z.mul_0_l, ?Z.mul_1_l, ?Zmod_0_l;
        cbn; rewrite ?Zmod_0_l; reflexivity. }
    rewrite Hab. destruct (IH (S i) (add p a (mul p (const p (pow2 i)) b))) as (r & Hr & Hv).
    exists r. split; [exact Hr|]. intros Ha. rewrite Hv by (apply Z.mod_pos_bound; lia).
    apply recon_step.
Qed.

Theorem bit_range_run v n : (0 < n < 256)%nat -> pow2 n < p / 2 -> 0 <= v < pow2 n ->
  rn (range_check_pow2_unsigned p v n) = Some (bits_of v n).
Proof.
  intros Hn Hs Hv. pose proof pge2 as H2.
  assert (Hs' : pow2 n < p).
  { eapply Z.lt_le_trans; [exact Hs|]. apply Z.div_le_upper_bound; lia. }
  unfold range_check_pow2_unsigned, unconstrained_to_bits.
  destruct (Nat.eqb_spec n 0); [lia|]. destruct (Nat.leb_spec 256 n); [lia|].
  destruct (Z.leb_spec (p / 2) (pow2 n)); [lia|].
  rewrite run_bind, extract_run by lia. rewrite run_bind.
  unfold constrained_reconstruct_from_bits. rewrite bits_len. destruct (Nat.ltb_spec 256 n); [lia|].
  destruct (recon_run 0 (const p 0) (bits_of v n) (bits_bit _ _)) as (r & Hr & Hval). rewrite Hr.
  rewrite Hval by (apply Z.mod_pos_bound; lia). rewrite bits_val by lia. unfold const. rewrite Zmod_0_l.
  change (pow2 0) with 1. rewrite Z.add_0_l, Z.mul_1_l, Z.mod_small by lia.
  rewrite run_bind, run_assert_eq by auto. reflexivity.
Qed.
End B.
