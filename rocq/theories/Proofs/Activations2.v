(** Sigmoid, Tanh, Log. *)
From Coq Require Import ZArith List Bool Znumtheory Lia.
From Verif Require Import Spec.Numbers Spec.HonestProver Model.Builder Model.Gadgets Model.Layers Model.Activations
  Proofs.Builder Proofs.RangeCheck Proofs.Gadgets Proofs.Division Proofs.Layers Proofs.Layers2 Proofs.ExpLookup
  Proofs.HonestRun Proofs.Activations1.
Import ListNotations.
Local Open Scope Z_scope.

Lemma bit_length_pow2 k : bit_length (pow2 k) = (k + 1)%nat.
Proof.
  pose proof (pow2_pos k). unfold bit_length. destruct (Z.eqb_spec (pow2 k) 0); [lia|].
  unfold pow2. rewrite Z.log2_pow2 by (unfold zn; lia). unfold zn. lia.
Qed.

Lemma enc_cancel p s a b : prime p -> 0 < s < p -> enc p (s * a) = enc p (s * b) -> enc p a = enc p b.
Proof.
  intros Hp Hs E. unfold enc in *. pose proof (prime_ge_2 _ Hp).
  assert (D : (p | s * (a - b))).
  { apply Z.mod_divide; [lia|]. rewrite Z.mul_sub_distr_l, Zminus_mod, E, Z.sub_diag. apply Zmod_0_l. }
  apply prime_mult in D as [D|D]; auto.
  - apply Z.divide_pos_le in D; lia.
  - destruct D as (q & D). replace a with (b + q * p) by lia. apply Z_mod_plus_full.
Qed.

Lemma abs_mul_le a b A B : Z.abs a <= A -> Z.abs b <= B -> Z.abs (a * b) <= A * B.
Proof. intros. rewrite Z.abs_mul. apply Z.mul_le_mono_nonneg; lia. Qed.

Lemma sig_arith s Q r t Y K : 0 < s -> 0 <= Q -> Z.abs r <= K * s -> r < 2 * s -> Z.abs t <= K * s -> 4 <= K -> 2 * K + 4 <= s ->
  Y * (s * s + Q - r) = s * (s * s - 2 * s + t) ->
  Z.abs (Y * (s * s + Q) - s * s * s) <= (4 * K + 2) * (s * s).
Proof.
  intros Hs HQ Hr Hr2 Ht HK HKs Eq. set (D := s * s + Q - r) in *.
  assert (A1 : (2 * K + 4) * s <= s * s) by (apply Z.mul_le_mono_nonneg_r; lia).
  assert (HD : s * s <= 2 * D) by (unfold D; lia).
  assert (A2 : s * s + (K + 2) * s <= 3 * D) by lia.
  assert (A3 : Z.abs (Y * D) <= s * (s * s + (K + 2) * s)).
  { rewrite Eq. apply abs_mul_le; lia. }
  assert (A4 : s * (s * s + (K + 2) * s) <= s * (3 * D)) by (apply Z.mul_le_mono_nonneg_l; lia).
  assert (HY : Z.abs Y <= 3 * s).
  { rewrite Z.abs_mul, (Z.abs_eq D) in A3 by lia. apply Z.mul_le_mono_pos_r with D; lia. }
  replace (Y * (s * s + Q) - s * s * s) with (Y * r + s * (t - 2 * s)) by (unfold D in Eq; lia).
  assert (Z.abs (Y * r) <= 3 * s * (K * s)) by (apply abs_mul_le; lia).
  assert (Z.abs (s * (t - 2 * s)) <= s * (K * s + 2 * s)) by (apply abs_mul_le; lia).
  lia.
Qed.

Lemma tanh_arith s Q r u Y K : 10 <= s -> 0 <= Q -> Z.abs r <= K * s -> r < 2 * s -> Z.abs u <= 5 * s ->
  Y * (s * s + Q - r) = s * (Q - r - s * s) + s * u ->
  Z.abs (Y * (Q + s * s) - s * (Q - s * s)) <= (8 * K + 5) * (s * s).
Proof.
  intros Hs HQ Hr Hr2 Hu Eq. set (D := s * s + Q - r) in *.
  assert (A0 : 10 * s <= s * s) by (apply Z.mul_le_mono_nonneg_r; lia).
  assert (HK : 0 <= K) by nia.
  assert (HD : s * s <= 2 * D) by (unfold D; lia).
  assert (Eq2 : (Y - s) * D = s * (u - 2 * (s * s))) by (unfold D in *; lia).
  assert (A2 : 5 * s + 2 * (s * s) <= 6 * D) by lia.
  assert (A3 : Z.abs ((Y - s) * D) <= s * (5 * s + 2 * (s * s))).
  { rewrite Eq2. apply abs_mul_le; lia. }
  assert (A4 : s * (5 * s + 2 * (s * s)) <= s * (6 * D)) by (apply Z.mul_le_mono_nonneg_l; lia).
  assert (HY : Z.abs (Y - s) <= 6 * s).
  { rewrite Z.abs_mul, (Z.abs_eq D) in A3 by lia. apply Z.mul_le_mono_pos_r with D; lia. }
  replace (Y * (Q + s * s) - s * (Q - s * s)) with ((Y - s) * r + s * u) by (unfold D in Eq; lia).
  assert (Z.abs ((Y - s) * r) <= 6 * s * (K * s)) by (apply abs_mul_le; lia).
  assert (Z.abs (s * u) <= s * (5 * s)) by (apply abs_mul_le; lia).
  assert (0 <= K * (s * s)) by (apply Z.mul_nonneg_nonneg; [lia|apply Z.mul_nonneg_nonneg; lia]).
  lia.
Qed.

Lemma nearest_range N s e : 0 < s -> 0 <= e < 3 * s -> 2 * Z.abs (N * (s + e) - s * s) <= s + e ->
  0 <= N <= s /\ 0 <= N * (s + e) - s * s + 2 * s < 4 * s.
Proof.
  intros Hs He HN. assert (0 <= N).
  { apply Z.nlt_ge. intros H. assert (N * (s + e) <= (-1) * (s + e)) by (apply Z.mul_le_mono_nonneg_r; lia). assert (0 < s * s) by (apply Z.mul_pos_pos; lia). lia. }
  assert (N <= s).
  { apply Z.nlt_ge. intros H1. assert ((s + 1) * (s + e) <= N * (s + e)) by (apply Z.mul_le_mono_nonneg_r; lia).
    assert (0 <= s * e) by (apply Z.mul_nonneg_nonneg; lia). lia. }
  lia.
Qed.

Lemma add_solve p y s Y1 : 0 <= y < p -> add p y (const p s) = enc p Y1 -> y = enc p (Y1 - s).
Proof.
  intros H E. change (const p) with (enc p) in E. rewrite <- sub_enc, <- E.
  assert (Ey : enc p y = y) by (apply enc_id; auto).
  rewrite <- Ey at 2. rewrite add_enc, sub_enc. replace (y + s - s) with y by lia. auto.
Qed.
Lemma abs_sub_bound p a b A B : Z.abs a <= A -> Z.abs b <= B -> A + B < p -> - p < a - b < p.
Proof. lia. Qed.

Section E.
Variable p : Z.
Hypothesis Hprime : prime p.
Variable c : nat.
Hypothesis Hc : (0 < c)%nat.
Variables tb kappa : nat.
Variable E : Z -> Z.
Let s := pow2 kappa.
Notation F := (exp_tables p tb E).
Variable G : nat -> list Z -> nat -> option (list Z).
Notation acc := (accepts p (table_rows c F)).
Notation rn := (run (honest_with G) (table_rowsb c F)).
Hypothesis Htb : (2 <= tb)%nat.
Hypothesis Hwc : width_ok c (tb / 2).
Hypothesis Hws : width_ok c (kappa + 1).
Hypothesis Hp1 : 2 * pow2 tb <= p.
Hypothesis Hp2 : pow2 (rounded c (tb / 2)) <= p.
Hypothesis Hp3 : pow2 (rounded c (kappa + 1)) <= p.
Notation P := (exp_product tb E).

Definition exp_in (X : Z) : Prop := - pow2 (tb - 1) <= X < pow2 (tb - 1).

Lemma ex_s : 0 < s /\ 2 * s <= p /\ pow2 tb = 2 * pow2 (tb - 1) /\ 0 < pow2 (tb - 1).
Proof using Hc Hp3 Htb.
  clear - Hc Hp3 Htb. pose proof (pow2_pos kappa). fold s in H. pose proof (pow2_1 kappa). fold s in H0.
  pose proof (pow2_le _ _ (rounded_ge c (kappa + 1))). pose proof (pow2_pos (tb - 1)).
  repeat split; try lia. rewrite <- pow2_1. f_equal. lia.
Qed.

Lemma exp_acc X e : Z.abs X + pow2 tb < p ->
  acc (verify_exp p c tb (pow2 kappa) (enc p X)) e <->
  exp_in X /\ 0 <= e < p /\ exists r, rci c (kappa + 1) r /\ enc p (s * e + r) = enc p (P X).
Proof using Hprime Hc Htb Hwc Hws Hp1 Hp2 Hp3.
  intros HX. destruct ex_s as (P1 & P2 & P3 & P4). pose proof (prime_ge_2 _ Hprime).
  rewrite verify_exp_acc; auto; rewrite ?bit_length_pow2; auto; [|apply enc_range; lia].
  unfold exp_in. split.
  - intros (He & x & r & Hx & E1 & Hr & E2). apply enc_inj in E1; [|lia|lia]. subst x.
    split; [auto|]. split; [auto|]. exists r. rewrite Z.mul_comm. auto.
  - intros (Hx & He & r & Hr & E2). split; [auto|]. exists X, r. rewrite Z.mul_comm in E2. auto.
Qed.

Lemma quot_ex v : exists e, 0 <= e < p /\ enc p (s * e) = enc p v.
Proof using Hprime Hc Hp3 Htb.
  destruct ex_s as (P1 & P2 & _). pose proof (prime_ge_2 _ Hprime).
  assert (Hrel : rel_prime s p). { apply rel_prime_sym, prime_rel_prime; auto. intros D. apply Z.divide_pos_le in D; lia. }
  apply rel_prime_bezout in Hrel as [u w Huw].
  exists (enc p (u * v)). split; [apply enc_range; lia|]. unfold enc. rewrite Zmult_mod_idemp_r.
  replace (s * (u * v)) with (v + (- w * v) * p) by (transitivity ((u * s) * v); [replace (u * s) with (1 - w * p) by lia; ring|ring]). apply Z_mod_plus_full.
Qed.

Lemma exp_ex X r : exp_in X -> rci c (kappa + 1) r ->
  exists e, acc (verify_exp p c tb (pow2 kappa) (enc p X)) e /\ 0 <= e < p /\ enc p (s * e + r) = enc p (P X).
Proof using Hprime Hc Htb Hwc Hws Hp1 Hp2 Hp3.
  intros HX Hr. destruct ex_s as (P1 & P2 & P3 & P4). destruct (quot_ex (P X - r)) as (e & He & Ee).
  assert (Q : enc p (s * e + r) = enc p (P X)).
  { rewrite <- add_enc, Ee, add_enc. f_equal. lia. }
  exists e. split; [|auto]. apply exp_acc; [unfold exp_in in HX; lia|]. split; [auto|]. split; [auto|]. eauto.
Qed.

(** The honest exponential. *)
Lemma exp_run X : exp_in X -> 0 <= P X < p ->
  (forall k, - pow2 (tb - 1) <= k < pow2 (tb - 1) -> G 1 [enc p k; const p (pow2 kappa)] 1 = Some [enc p (E k)]) ->
  rn (verify_exp p c tb (pow2 kappa) (enc p X)) = Some (enc p (P X / s)).
Proof using Hprime Hc Htb Hwc Hws Hp1 Hp2 Hp3.
  intros HX HP HG. destruct ex_s as (P1 & P2 & P3 & P4). pose proof (prime_ge_2 _ Hprime).
  unfold exp_in in HX. fold s in HG. set (cb := (tb / 2)%nat).
  assert (Hcb : (1 <= cb /\ cb <= tb - 1)%nat).
  { unfold cb. split; [apply Nat.div_le_lower_bound; lia|]. apply Nat.lt_succ_r. apply Nat.div_lt_upper_bound; lia. }
  pose proof (pow2_pos cb) as C1.
  assert (C2 : pow2 (tb - 1) = pow2 (tb - cb - 1) * pow2 cb) by (rewrite <- pow2_add; f_equal; lia).
  pose proof (pow2_pos (tb - cb - 1)) as C3. pose proof (pow2_1 (tb - cb - 1)) as C4.
  replace (tb - cb - 1 + 1)%nat with (tb - cb)%nat in C4 by lia.
  pose proof (pow2_le cb (tb - 1) ltac:(lia)) as C5.
  unfold verify_exp. cbv zeta. fold cb. rewrite bit_length_pow2.
  set (xs := X + pow2 (tb - 1)). encs. fold xs. fold s. rewrite (const_enc p (pow2 cb)), (const_enc p (pow2 (tb - cb - 1))).
  rewrite (enc_id p (pow2 cb)) by lia.
  rewrite (enc_id p xs) by (unfold xs; lia).
  rewrite run_bind, (rn_div p c Hc F G) by (unfold xs; lia).
  rewrite run_bind, (rn_mod p c Hc F G) by (unfold xs; lia).
  assert (D : xs / pow2 cb = X / pow2 cb + pow2 (tb - cb - 1)).
  { unfold xs. rewrite C2. apply Z.div_add. lia. }
  assert (M : xs mod pow2 cb = X mod pow2 cb).
  { unfold xs. rewrite C2. apply Z_mod_plus_full. }
  pose proof (Z.mod_pos_bound X (pow2 cb) C1) as ML.
  assert (QB : - pow2 (tb - cb - 1) <= X / pow2 cb < pow2 (tb - cb - 1)).
  { split; [apply Z.div_le_lower_bound; lia|apply Z.div_lt_upper_bound; lia]. }
  rewrite M, D. set (q := X / pow2 cb) in *. set (l := X mod pow2 cb) in *.
  assert (EX : X = q * pow2 cb + l) by (unfold q, l; rewrite Z.mul_comm; apply Z.div_mod; lia).
  rewrite run_bind, rn_eq.
  2: { rewrite <- (enc_id p l), <- (enc_id p (pow2 cb)), <- (enc_id p (q + pow2 (tb - cb - 1))), <- (enc_id p xs) by (unfold xs; try lia; nia).
       encs. f_equal. unfold xs. nia. }
  rewrite <- (enc_id p l) by lia. rewrite run_bind, rn_rc by (auto; apply rci_full; auto).
  rewrite <- (enc_id p (q + _)) by nia. rewrite <- (enc_id p (pow2 cb)) by lia. encs.
  replace (q + pow2 (tb - cb - 1) - pow2 (tb - cb - 1)) with q by lia.
  rewrite run_bind, (rn_custom c F G 1 _ _ (HG (q * pow2 cb) ltac:(nia))).
  rewrite run_bind, (rn_custom c F G 1 _ _ (HG l ltac:(lia))).
  rewrite run_bind. unfold lookup at 1. cbn [run].
  assert (T0 : table_rowsb c F (TFun 0) [enc p q; enc p (E (q * pow2 cb))] = true).
  { cbn [table_rowsb]. apply existsb_exists. exists [enc p q; enc p (E (q * pow2 cb))]. split.
    - cbn [exp_tables]. fold cb. apply (in_signed_table p (fun xh => E (xh * pow2 cb))). exists q. split; [|auto].
      rewrite C4. lia.
    - destruct list_eq_dec; auto. }
  rewrite T0, run_bind. unfold lookup at 1. cbn [run].
  assert (T1 : table_rowsb c F (TFun 1) [enc p l; enc p (E l)] = true).
  { cbn [table_rowsb]. apply existsb_exists. exists [enc p l; enc p (E l)]. split.
    - cbn [exp_tables]. fold cb. apply in_unsigned_table. exists l. auto.
    - destruct list_eq_dec; auto. }
  rewrite T1. encs. change (E (q * pow2 cb) * E l) with (P X).
  rewrite ?(const_enc p s). rewrite (enc_id p s), (enc_id p (P X)) by lia.
  rewrite run_bind, (rn_div p c Hc F G) by lia. rewrite run_bind, (rn_mod p c Hc F G) by lia.
  pose proof (Z.mod_pos_bound (P X) s P1) as MB. pose proof (Z.div_pos (P X) s ltac:(lia) P1) as DP.
  pose proof (Z.div_mod (P X) s ltac:(lia)) as DM.
  assert (DL : P X / s <= P X) by nia.
  rewrite run_bind, rn_eq.
  2: { unfold add, mul. rewrite Zplus_mod_idemp_l. rewrite Z.mod_small by lia. lia. }
  rewrite <- (enc_id p (P X mod s)) by lia. rewrite run_bind, rn_rc; auto.
  - cbn [run]. now rewrite (enc_id p (P X / s)) by lia.
  - apply rci_full; auto. rewrite pow2_1. fold s. lia.
Qed.

(** An honest exponential that succeeds had its argument in the table's range. *)
Lemma exp_run_range xf e : 0 <= xf < p ->
  rn (verify_exp p c tb (pow2 kappa) xf) = Some e -> (xf + pow2 (tb - 1)) mod p < pow2 tb.
Proof using Hprime Hc Htb Hwc Hws Hp1 Hp2 Hp3.
  intros Hx. destruct ex_s as (P1 & P2 & P3 & P4). pose proof (prime_ge_2 _ Hprime).
  set (cb := (tb / 2)%nat).
  assert (Hcb : (1 <= cb /\ cb <= tb - 1)%nat).
  { unfold cb. split; [apply Nat.div_le_lower_bound; lia|]. apply Nat.lt_succ_r. apply Nat.div_lt_upper_bound; lia. }
  pose proof (pow2_pos cb) as C1.
  assert (C2 : pow2 tb = pow2 (tb - cb) * pow2 cb) by (rewrite <- pow2_add; f_equal; lia).
  pose proof (pow2_pos (tb - cb - 1)) as C3. pose proof (pow2_1 (tb - cb - 1)) as C4.
  replace (tb - cb - 1 + 1)%nat with (tb - cb)%nat in C4 by lia.
  pose proof (pow2_le cb (tb - 1) ltac:(lia)) as C5. pose proof (pow2_le (tb - cb) tb ltac:(lia)) as C6.
  unfold verify_exp. cbv zeta. fold cb.
  change (add p xf (const p (pow2 (tb - 1)))) with ((xf + pow2 (tb - 1) mod p) mod p).
  rewrite (Z.mod_small (pow2 (tb - 1)) p) by lia. change (const p (pow2 cb)) with (pow2 cb mod p). rewrite (Z.mod_small (pow2 cb) p) by lia.
  set (xs := (xf + pow2 (tb - 1)) mod p). pose proof (Z.mod_pos_bound (xf + pow2 (tb - 1)) p ltac:(lia)) as Bx. fold xs in Bx.
  rewrite run_bind, (rn_div p c Hc F G) by lia. rewrite run_bind, (rn_mod p c Hc F G) by lia.
  rewrite run_bind. destruct (rn (assert_eq _ _)); [|discriminate].
  rewrite run_bind. destruct (rn (range_check _ _ _ _)); [|discriminate].
  rewrite run_bind. destruct (rn (hint1 _ _)) as [eh|]; [|discriminate].
  rewrite run_bind. destruct (rn (hint1 _ _)) as [el|]; [|discriminate].
  rewrite run_bind. unfold lookup at 1. cbn [run].
  destruct (table_rowsb c F (TFun 0) _) eqn:T; [|discriminate]. intros _.
  cbn [table_rowsb] in T. apply existsb_exists in T as (row & T1 & T2).
  destruct list_eq_dec as [->|]; [|discriminate T2].
  cbn [exp_tables] in T1. fold cb in T1. apply (in_signed_table p (fun xh => E (xh * pow2 cb))) in T1 as (q & Hq & Eq).
  assert (Q : sub p (xs / pow2 cb) (const p (pow2 (tb - cb - 1))) = enc p q) by congruence.
  pose proof (Z.div_pos xs (pow2 cb) ltac:(lia) C1) as D0.
  assert (D1 : xs / pow2 cb <= xs) by (apply Z.div_le_upper_bound; nia).
  rewrite <- (enc_id p (xs / pow2 cb)) in Q by lia. change (const p) with (enc p) in Q. rewrite sub_enc in Q.
  assert (Q' : enc p (xs / pow2 cb) = enc p (q + pow2 (tb - cb - 1))).
  { transitivity (add p (enc p (xs / pow2 cb - pow2 (tb - cb - 1))) (enc p (pow2 (tb - cb - 1)))); [rewrite add_enc; f_equal; lia|].
    rewrite Q, add_enc. reflexivity. }
  apply enc_inj in Q'; [|lia|lia]. rewrite C4 in Hq.
  assert (xs / pow2 cb < pow2 (tb - cb)) by lia.
  pose proof (Z.div_mod xs (pow2 cb) ltac:(lia)). pose proof (Z.mod_pos_bound xs (pow2 cb) C1). rewrite C2. nia.
Qed.

Ltac encp := change (const p) with (enc p) in *; repeat (rewrite add_enc || rewrite sub_enc || rewrite mul_enc).

(** ** Sigmoid *)
Definition sig_rel (Q Y r t : Z) : Prop := Y * (s * s + Q - r) = s * (s * s - 2 * s + t).

Lemma sig_tol : np2_bits (2 * (2 * s)) = (kappa + 2)%nat.
Proof using Hc Hp3 Htb.
  destruct ex_s as (P1 & _). replace (kappa + 2)%nat with (kappa + 1 + 1)%nat by lia. apply np2_bits_eq.
  rewrite !pow2_1. fold s. lia.
Qed.

Lemma sig_key y e r t X : enc p (s * e + r) = enc p (P (- X)) ->
  (enc p (y * (s + e) - s * s + 2 * s) = enc p t <->
   enc p (y * (s * s + P (- X) - r)) = enc p (s * (s * s - 2 * s + t))).
Proof using Hprime Hc Hp3 Htb.
  intros He. destruct ex_s as (P1 & P2 & _).
  assert (K : enc p (y * (s * s + P (- X) - r)) = enc p (s * (y * (s + e)))).
  { replace (y * (s * s + P (- X) - r)) with (y * (P (- X)) + y * (s * s - r)) by ring.
    rewrite <- add_enc, <- mul_enc, <- He, mul_enc, add_enc. f_equal. ring. }
  rewrite K. split.
  - intros Ht. transitivity (mul p (enc p s) (add p (enc p (y * (s + e) - s * s + 2 * s)) (enc p (s * s - 2 * s)))).
    + rewrite add_enc, mul_enc. f_equal. ring.
    + rewrite Ht, add_enc, mul_enc. f_equal. ring.
  - intros Ht. apply enc_cancel in Ht; auto; [|lia].
    transitivity (sub p (enc p (y * (s + e))) (enc p (s * s - 2 * s))).
    + rewrite sub_enc. f_equal. ring.
    + rewrite Ht, sub_enc. f_equal. ring.
Qed.

Section Sig.
Variable nb : nat.
Hypothesis Hwn : width_ok c nb.
Hypothesis Hw2 : width_ok c (kappa + 2).
Let Rn := pow2 (rounded c nb).
Let R1 := pow2 (rounded c (kappa + 1)).
Let R2 := pow2 (rounded c (kappa + 2)).

Theorem sigmoid_acc X y : 0 <= P (- X) -> Z.abs X + pow2 tb < p ->
  2 * ((2 * Rn + s) * (s * s + P (- X) + R1) + s * (s * s + 2 * s + R2)) <= p ->
  acc (sigmoid_element p c kappa nb tb (enc p X)) y <->
  exp_in (- X) /\ exists Y r t, y = enc p Y /\ rci c nb Y /\ rci c nb (s - Y) /\
    rci c (kappa + 1) r /\ rci c (kappa + 2) t /\ sig_rel (P (- X)) Y r t.
Proof using Hprime Hc Htb Hwc Hws Hp1 Hp2 Hp3 Hwn Hw2.
  intros HP HX Hbig. destruct ex_s as (P1 & P2 & P3 & P4). pose proof (prime_ge_2 _ Hprime) as Hpp.
  pose proof (pow2_pos (rounded c nb)) as Q1. fold Rn in Q1.
  pose proof (pow2_pos (rounded c (kappa + 1))) as Q2. fold R1 in Q2.
  pose proof (pow2_pos (rounded c (kappa + 2))) as Q3. fold R2 in Q3.
  pose proof (pow2_pos nb) as Q4. pose proof (pow2_le _ _ (rounded_ge c nb)) as Q5. fold Rn in Q5.
  pose proof (pow2_pos (kappa + 2)) as Q6. pose proof (pow2_le _ _ (rounded_ge c (kappa + 2))) as Q7. fold R2 in Q7.
  pose proof (pow2_pos (kappa + 1)) as Q8. pose proof (pow2_le _ _ (rounded_ge c (kappa + 1))) as Q9. fold R1 in Q9.
  assert (B1 : 2 * Rn + s + R2 <= p) by nia.
  unfold sigmoid_element. cbv zeta. fold s. rewrite sig_tol. unfold sig_rel. split.
  - intros H. a_hint H y0 Hy0. a_rc H H1. a_rc H H2.
    apply rc_of in H1 as (Y & HY & ->); auto; [|fold Rn; lia].
    apply accepts_bind in H as (e & He & H).
    revert He H H2. encp. intros He H H2. apply exp_acc in He as (Hin & He & r & Hr & Er); [|lia].
    replace (0 - X) with (- X) in * by lia. split; [auto|].
    assert (B2 : - Rn < Y < Rn) by (unfold rci in HY; fold Rn in HY; lia).
    apply rc_int in H2; auto; [|fold Rn; lia|fold Rn; lia].
    a_rc H H3. apply accepts_ret in H. subst y.
    apply rc_of in H3 as (t & Ht & Et); auto; [|fold R2; lia|unfold add; apply Z.mod_pos_bound; lia].
    exists Y, r, t. split; [auto|]. split; [auto|]. split; [auto|]. split; [auto|]. split; [auto|].
    rewrite <- (enc_id p e) in Et by lia. revert Et. encp. intros Et.
    apply (sig_key Y e r t X Er) in Et.
    assert (B3 : - R1 < r < R1) by (unfold rci in Hr; fold R1 in Hr; lia).
    assert (B4 : - R2 < t < R2) by (unfold rci in Ht; fold R2 in Ht; lia).
    apply enc_inj in Et; [auto|lia|].
    assert (Z.abs (Y * (s * s + P (- X) - r)) <= Rn * (s * s + P (- X) + R1)).
    { rewrite Z.abs_mul. apply Z.mul_le_mono_nonneg; lia. }
    assert (Z.abs (s * (s * s - 2 * s + t)) <= s * (s * s + 2 * s + R2)).
    { rewrite Z.abs_mul. apply Z.mul_le_mono_nonneg; lia. }
    assert (Rn * (s * s + P (- X) + R1) <= (2 * Rn + s) * (s * s + P (- X) + R1)) by (apply Z.mul_le_mono_nonneg_r; [nia|lia]).
    apply (abs_sub_bound p _ _ (Rn * (s * s + P (- X) + R1)) (s * (s * s + 2 * s + R2))); auto; lia.
  - intros (Hin & Y & r & t & -> & H1 & H2 & Hr & Ht & Eq).
    destruct (exp_ex (- X) r Hin Hr) as (e & He & Hep & Er).
    assert (B2 : - Rn < Y < Rn) by (unfold rci in H1; fold Rn in H1; lia).
    g_hint (enc p Y); [apply enc_range; lia|]. encp. replace (0 - X) with (- X) by lia.
    g_unit; [apply rc_int; auto; fold Rn; lia|]. g_unit; [apply rc_int; auto; fold Rn; lia|].
    apply accepts_bind. exists e. split; [auto|].
    rewrite <- (enc_id p e) by lia. encp.
    assert (Et : enc p (Y * (s + e) - s * s + 2 * s) = enc p t).
    { apply (sig_key Y e r t X Er). now rewrite Eq. }
    rewrite Et. g_unit; [apply rc_slack; auto; fold R2; try lia; auto|]. reflexivity.
Qed.

(** Soundness: [K] bounds the rounding of the range-check widths. *)
Theorem sigmoid_sound X y K : 0 <= P (- X) -> Z.abs X + pow2 tb < p ->
  2 * ((2 * Rn + s) * (s * s + P (- X) + R1) + s * (s * s + 2 * s + R2)) <= p ->
  R1 <= K * s -> R2 <= K * s -> 2 * K + 4 <= s ->
  acc (sigmoid_element p c kappa nb tb (enc p X)) y ->
  exists Y, y = enc p Y /\ Z.abs (Y * (s * s + P (- X)) - s * s * s) <= (4 * K + 2) * (s * s).
Proof using Hprime Hc Htb Hwc Hws Hp1 Hp2 Hp3 Hwn Hw2.
  intros HP HX Hbig K1 K2 K3 H. apply sigmoid_acc in H as (Hin & Y & r & t & -> & _ & _ & Hr & Ht & Eq); auto.
  exists Y. split; [auto|]. unfold sig_rel in Eq. destruct ex_s as (P1 & _).
  unfold rci in Hr, Ht. fold R1 in Hr. fold R2 in Ht.
  pose proof (pow2_1 kappa) as E1. fold s in E1.
  assert (E2 : pow2 (kappa + 2) = 4 * s). { rewrite pow2_add. fold s. change (pow2 2) with 4. lia. }
  rewrite E1 in Hr. rewrite E2 in Ht.
  pose proof (pow2_le _ _ (rounded_ge c (kappa + 1))) as Q9. fold R1 in Q9. rewrite E1 in Q9.
  pose proof (pow2_le _ _ (rounded_ge c (kappa + 2))) as Q7. fold R2 in Q7. rewrite E2 in Q7.
  assert (4 <= K) by (apply Z.mul_le_mono_pos_r with s; lia).
  apply (sig_arith s (P (- X)) r t Y K); auto; lia.
Qed.

(** The honest prover for inputs whose exponential is small. *)
Theorem sigmoid_run X N : exp_in (- X) -> 0 <= P (- X) -> P (- X) / s < 3 * s ->
  (kappa < nb)%nat -> Rn <= p -> R2 <= p -> 4 * s * s <= p ->
  (forall k, - pow2 (tb - 1) <= k < pow2 (tb - 1) -> G 1 [enc p k; const p (pow2 kappa)] 1 = Some [enc p (E k)]) ->
  G 14 [enc p X; const p (pow2 kappa)] 1 = Some [enc p N] ->
  2 * Z.abs (N * (s + P (- X) / s) - s * s) <= s + P (- X) / s ->
  rn (sigmoid_element p c kappa nb tb (enc p X)) = Some (enc p N).
Proof using Hprime Hc Htb Hwc Hws Hp1 Hp2 Hp3 Hwn Hw2.
  intros Hin HP Hsm Hkn B1 B2 B3 HG1 HG HN. destruct ex_s as (P1 & P2 & P3 & P4). pose proof (prime_ge_2 _ Hprime) as Hpp.
  pose proof (pow2_lt kappa nb Hkn) as Hs. fold s in Hs.
  set (e := P (- X) / s) in *. assert (He : 0 <= e) by (apply Z.div_pos; lia).
  assert (HPp : P (- X) < p).
  { pose proof (Z.div_mod (P (- X)) s ltac:(lia)) as DM. pose proof (Z.mod_pos_bound (P (- X)) s P1). fold e in DM. nia. }
  assert (E2 : pow2 (kappa + 2) = 4 * s). { rewrite pow2_add. fold s. change (pow2 2) with 4. lia. }
  destruct (nearest_range N s e) as (HN0 & HN1); auto; try lia.
  unfold sigmoid_element. cbv zeta. fold s. rewrite sig_tol.
  fold s in HG. rewrite run_bind, (rn_custom c F G 14 _ _ HG).
  rewrite run_bind, rn_rc by (auto; apply rci_full; auto; lia).
  encp. rewrite run_bind, rn_rc by (auto; apply rci_full; auto; lia).
  replace (0 - X) with (- X) by lia. unfold s at 1.
  rewrite run_bind, exp_run; auto; try lia. fold s. fold e.
  encp. rewrite run_bind, rn_rc; auto. apply rci_full; auto. rewrite E2. lia.
Qed.
End Sig.

(** ** Tanh *)
Definition tanh_rel (Q Y r t : Z) : Prop := Y * (s * s + Q - r) = s * (Q - r - s * s) + s * (t - 3 * s).

Lemma tanh_tol : np2_bits (2 * (3 * s)) = (kappa + 3)%nat.
Proof using Hc Hp3 Htb.
  destruct ex_s as (P1 & _). replace (kappa + 3)%nat with (kappa + 1 + 1 + 1)%nat by lia. apply np2_bits_eq.
  rewrite !pow2_1. fold s. lia.
Qed.

Lemma tanh_key y e r t Q : enc p (s * e + r) = enc p Q ->
  (enc p (y * (e + s) - (e - s) * s + 3 * s) = enc p t <->
   enc p (y * (s * s + Q - r)) = enc p (s * (Q - r - s * s) + s * (t - 3 * s))).
Proof using Hprime Hc Hp3 Htb.
  intros He. destruct ex_s as (P1 & P2 & _).
  assert (K : enc p (y * (s * s + Q - r)) = enc p (s * (y * (e + s)))).
  { replace (y * (s * s + Q - r)) with (y * Q + y * (s * s - r)) by ring.
    rewrite <- add_enc, <- mul_enc, <- He, mul_enc, add_enc. f_equal. ring. }
  assert (K2 : enc p (s * (Q - r - s * s) + s * (t - 3 * s)) = enc p (s * ((e - s) * s + (t - 3 * s)))).
  { replace (s * (Q - r - s * s) + s * (t - 3 * s)) with (s * Q + (s * (- r - s * s) + s * (t - 3 * s))) by ring.
    rewrite <- add_enc, <- mul_enc, <- He, mul_enc, add_enc. f_equal. ring. }
  rewrite K, K2. split.
  - intros Ht. transitivity (mul p (enc p s) (add p (enc p (y * (e + s) - (e - s) * s + 3 * s)) (enc p ((e - s) * s - 3 * s)))).
    + rewrite add_enc, mul_enc. f_equal. ring.
    + rewrite Ht, add_enc, mul_enc. f_equal. ring.
  - intros Ht. apply enc_cancel in Ht; auto; [|lia].
    transitivity (sub p (enc p (y * (e + s))) (enc p ((e - s) * s - 3 * s))).
    + rewrite sub_enc. f_equal. ring.
    + rewrite Ht, sub_enc. f_equal. ring.
Qed.

Section Tanh.
Variable nb : nat.
Hypothesis Hwn : width_ok c (nb + 1).
Hypothesis Hw3 : width_ok c (kappa + 3).
Let Rn := pow2 (rounded c (nb + 1)).
Let R1 := pow2 (rounded c (kappa + 1)).
Let R3 := pow2 (rounded c (kappa + 3)).

Theorem tanh_acc X y : 0 <= P (2 * X) -> 2 * Z.abs X + pow2 tb < p ->
  2 * ((3 * Rn + 2 * s) * (s * s + P (2 * X) + R1) + s * (s * s + P (2 * X) + R1 + 6 * s + 2 * R3)) <= p ->
  acc (tanh_element p c kappa nb tb (enc p X)) y <->
  exp_in (2 * X) /\ exists Y r t, y = enc p Y /\ rci c (nb + 1) (Y + s) /\ rci c (nb + 1) (s - Y) /\
    rci c (kappa + 1) r /\ rci c (kappa + 3) t /\ rci c (kappa + 3) (6 * s - t) /\ tanh_rel (P (2 * X)) Y r t.
Proof using Hprime Hc Htb Hwc Hws Hp1 Hp2 Hp3 Hwn Hw3.
  intros HP HX Hbig. destruct ex_s as (P1 & P2 & P3 & P4). pose proof (prime_ge_2 _ Hprime) as Hpp.
  pose proof (pow2_pos (rounded c (nb + 1))) as Q1. fold Rn in Q1.
  pose proof (pow2_pos (rounded c (kappa + 1))) as Q2. fold R1 in Q2.
  pose proof (pow2_pos (rounded c (kappa + 3))) as Q3. fold R3 in Q3.
  pose proof (pow2_pos (nb + 1)) as Q4. pose proof (pow2_le _ _ (rounded_ge c (nb + 1))) as Q5. fold Rn in Q5.
  pose proof (pow2_pos (kappa + 3)) as Q6. pose proof (pow2_le _ _ (rounded_ge c (kappa + 3))) as Q7. fold R3 in Q7.
  pose proof (pow2_pos (kappa + 1)) as Q8. pose proof (pow2_le _ _ (rounded_ge c (kappa + 1))) as Q9. fold R1 in Q9.
  assert (B1 : 3 * Rn + 2 * s + 2 * R3 + 6 * s <= p).
  { assert (0 <= s * s) by (apply Z.mul_nonneg_nonneg; lia).
    assert ((3 * Rn + 2 * s) * 1 <= (3 * Rn + 2 * s) * (s * s + P (2 * X) + R1)) by (apply Z.mul_le_mono_nonneg_l; lia).
    assert (1 * (s * s + P (2 * X) + R1 + 6 * s + 2 * R3) <= s * (s * s + P (2 * X) + R1 + 6 * s + 2 * R3)) by (apply Z.mul_le_mono_nonneg_r; lia).
    lia. }
  unfold tanh_element. cbv zeta. fold s. rewrite tanh_tol. unfold tanh_rel. split.
  - intros H. a_hint H y0 Hy0. a_rc H H1. a_rc H H2.
    apply rc_of in H1 as (Y1 & HY & EY); auto; [|fold Rn; lia|unfold add; apply Z.mod_pos_bound; lia].
    assert (Ey : y0 = enc p (Y1 - s)).
    { apply (add_solve p); auto. }
    set (Y := Y1 - s) in *. replace Y1 with (Y + s) in HY by (unfold Y; lia). clearbody Y. subst y0. clear EY.
    apply accepts_bind in H as (e & He & H).
    revert He H H2. encp. intros He H H2. replace (X + X) with (2 * X) in * by lia.
    apply exp_acc in He as (Hin & He & r & Hr & Er); [|lia].
    split; [auto|].
    assert (B2 : - Rn < Y + s < Rn) by (unfold rci in HY; fold Rn in HY; lia).
    apply rc_int in H2; auto; [|fold Rn; lia|fold Rn; lia].
    a_rc H H3. a_rc H H4. apply accepts_ret in H. subst y.
    rewrite <- (enc_id p e) in H3, H4 by lia. revert H3 H4. encp. intros H3 H4.
    apply rc_of in H3 as (t & Ht & Et); auto; [|fold R3; lia|apply enc_range; lia].
    exists Y, r, t. split; [auto|]. split; [auto|]. split; [auto|]. split; [auto|]. split; [auto|].
    assert (B3 : - R1 < r < R1) by (unfold rci in Hr; fold R1 in Hr; lia).
    assert (B4 : - R3 < t < R3) by (unfold rci in Ht; fold R3 in Ht; lia).
    split.
    + rewrite <- sub_enc, Et, sub_enc in H4. replace (2 * (3 * s) - t) with (6 * s - t) in H4 by lia.
      apply rc_int in H4; auto; fold R3; lia.
    + apply (tanh_key Y e r t _ Er) in Et. apply enc_inj in Et; [auto|lia|].
      assert (Z.abs (Y * (s * s + P (2 * X) - r)) <= (Rn + s) * (s * s + P (2 * X) + R1)).
      { rewrite Z.abs_mul. apply Z.mul_le_mono_nonneg; lia. }
      assert (Z.abs (s * (P (2 * X) - r - s * s)) <= s * (s * s + P (2 * X) + R1)).
      { rewrite Z.abs_mul. apply Z.mul_le_mono_nonneg; lia. }
      assert (Z.abs (s * (t - 3 * s)) <= s * (R3 + 3 * s)).
      { rewrite Z.abs_mul. apply Z.mul_le_mono_nonneg; lia. }
      assert ((Rn + s) * (s * s + P (2 * X) + R1) <= (3 * Rn + 2 * s) * (s * s + P (2 * X) + R1)) by (apply Z.mul_le_mono_nonneg_r; [nia|lia]).
      assert (0 <= s * (R3 + 3 * s)) by nia.
      assert (s * (s * s + P (2 * X) + R1) + s * (R3 + 3 * s) <= s * (s * s + P (2 * X) + R1 + 6 * s + 2 * R3)) by nia.
      apply (abs_sub_bound p _ _ ((Rn + s) * (s * s + P (2 * X) + R1)) (s * (s * s + P (2 * X) + R1) + s * (R3 + 3 * s)));
        auto; [|lia]. etransitivity; [apply Z.abs_triangle|]. lia.
  - intros (Hin & Y & r & t & -> & H1 & H2 & Hr & Ht & Ht2 & Eq).
    destruct (exp_ex (2 * X) r Hin Hr) as (e & He & Hep & Er).
    assert (B2 : - Rn < Y + s < Rn) by (unfold rci in H1; fold Rn in H1; lia).
    g_hint (enc p Y); [apply enc_range; lia|]. encp. replace (X + X) with (2 * X) by lia.
    g_unit; [apply rc_int; auto; fold Rn; lia|]. g_unit; [apply rc_int; auto; fold Rn; lia|].
    apply accepts_bind. exists e. split; [auto|].
    rewrite <- (enc_id p e) by lia. encp.
    assert (Et : enc p (Y * (e + s) - (e - s) * s + 3 * s) = enc p t).
    { apply (tanh_key Y e r t _ Er). now rewrite Eq. }
    rewrite <- sub_enc, Et, sub_enc. replace (2 * (3 * s) - t) with (6 * s - t) by lia.
    g_unit; [apply rc_slack; auto; fold R3; try lia; auto|].
    g_unit; [apply rc_slack; auto; fold R3; try lia; auto|]. reflexivity.
Qed.

Theorem tanh_sound X y K : 0 <= P (2 * X) -> 2 * Z.abs X + pow2 tb < p ->
  2 * ((3 * Rn + 2 * s) * (s * s + P (2 * X) + R1) + s * (s * s + P (2 * X) + R1 + 6 * s + 2 * R3)) <= p ->
  R1 <= K * s -> 10 <= s ->
  acc (tanh_element p c kappa nb tb (enc p X)) y ->
  exists Y, y = enc p Y /\ Z.abs (Y * (P (2 * X) + s * s) - s * (P (2 * X) - s * s)) <= (8 * K + 5) * (s * s).
Proof using Hprime Hc Htb Hwc Hws Hp1 Hp2 Hp3 Hwn Hw3.
  intros HP HX Hbig K1 K3 H. apply tanh_acc in H as (Hin & Y & r & t & -> & _ & _ & Hr & Ht & Ht2 & Eq); auto.
  exists Y. split; [auto|]. unfold tanh_rel in Eq. destruct ex_s as (P1 & _).
  unfold rci in Hr, Ht, Ht2. fold R1 in Hr. fold R3 in Ht, Ht2.
  pose proof (pow2_1 kappa) as E1. fold s in E1.
  assert (E2 : pow2 (kappa + 3) = 8 * s). { rewrite pow2_add. fold s. change (pow2 3) with 8. lia. }
  rewrite E1 in Hr. rewrite E2 in Ht, Ht2.
  pose proof (pow2_le _ _ (rounded_ge c (kappa + 1))) as Q9. fold R1 in Q9. rewrite E1 in Q9.
  apply (tanh_arith s (P (2 * X)) r (t - 3 * s) Y K); auto; lia.
Qed.
(** The honest prover for inputs whose exponential is small. *)
Theorem tanh_run X N : exp_in (2 * X) -> 0 <= P (2 * X) -> P (2 * X) / s <= 5 * s ->
  (kappa < nb)%nat -> Rn <= p -> R3 <= p -> 6 * s * s <= p ->
  (forall k, - pow2 (tb - 1) <= k < pow2 (tb - 1) -> G 1 [enc p k; const p (pow2 kappa)] 1 = Some [enc p (E k)]) ->
  G 15 [enc p X; const p (pow2 kappa)] 1 = Some [enc p N] ->
  2 * Z.abs (N * (P (2 * X) / s + s) - (P (2 * X) / s - s) * s) <= P (2 * X) / s + s ->
  rn (tanh_element p c kappa nb tb (enc p X)) = Some (enc p N).
Proof.
  intros Hin HP HP5 Hk HRn HR3 Hss HE HG HN. pose proof (prime_ge_2 _ Hprime).
  destruct ex_s as (P1 & P2 & P3 & P4).
  set (e := P (2 * X) / s) in *.
  assert (He : 0 <= e) by (apply Z.div_pos; lia).
  assert (HPp : 0 <= P (2 * X) < p).
  { split; [auto|]. pose proof (Z.div_mod (P (2 * X)) s ltac:(lia)). pose proof (Z.mod_pos_bound (P (2 * X)) s P1). fold e in H0. nia. }
  assert (HNr : - s <= N <= s) by (clear - P1 He HN; split; nia).
  assert (HB : - (3 * s) <= N * (e + s) - (e - s) * s <= 3 * s) by (clear - P1 He HN HP5; lia).
  unfold tanh_element. cbv zeta. fold s. rewrite tanh_tol. fold s in HG.
  rewrite run_bind, (rn_custom c F G 15 _ _ HG). encp.
  pose proof (pow2_le _ _ (rounded_ge c (nb + 1))) as L1. pose proof (pow2_1 nb) as L2. pose proof (pow2_lt _ _ Hk) as L3. fold s in L3.
  assert (L4 : pow2 (kappa + 3) = 8 * s) by (rewrite pow2_add; change (pow2 3) with 8; fold s; lia).
  pose proof (pow2_le _ _ (rounded_ge c (kappa + 3))) as L5.
  rewrite run_bind, rn_rc; auto; [|unfold rci; lia].
  rewrite run_bind, rn_rc; auto; [|unfold rci; lia].
  replace (X + X) with (2 * X) by lia.
  rewrite run_bind.
  change (rn (verify_exp p c tb s (enc p (2 * X)))) with (rn (verify_exp p c tb (pow2 kappa) (enc p (2 * X)))).
  rewrite (exp_run _ Hin HPp HE). fold e. encp.
  rewrite run_bind, rn_rc; auto; [|unfold rci; lia].
  rewrite run_bind, rn_rc; auto; unfold rci; lia.
Qed.
End Tanh.

(** ** Log *)
Lemma log_tol : (np2_bits (2 * (2 * s)) + 1 = kappa + 3)%nat.
Proof using Hc Hp3 Htb. rewrite sig_tol. lia. Qed.

Section Log.
Variable nb : nat.
Hypothesis Hwn : width_ok c nb.
Hypothesis Hw3 : width_ok c (kappa + 3).
Let Rn := pow2 (rounded c nb).
Let R1 := pow2 (rounded c (kappa + 1)).
Let R3 := pow2 (rounded c (kappa + 3)).

Theorem log_acc X y : - Rn < X < Rn -> (forall Y, exp_in Y -> 0 <= P Y /\ P Y + Rn * s + R1 + 8 * s + 2 * R3 + 2 * Rn <= p) ->
  acc (log_element p c kappa nb tb (enc p X)) y <->
  rci c nb X /\ rci c nb (X - 1) /\ exists Y r t, y = enc p Y /\ exp_in Y /\ rci c (kappa + 1) r /\
    rci c (kappa + 3) t /\ rci c (kappa + 3) (4 * s - t) /\ P Y - r = s * X + (t - 2 * s).
Proof using Hprime Hc Htb Hwc Hws Hp1 Hp2 Hp3 Hwn Hw3.
  intros HX HP. destruct ex_s as (P1 & P2 & P3 & P4). pose proof (prime_ge_2 _ Hprime) as Hpp.
  pose proof (pow2_pos (rounded c nb)) as Q1. fold Rn in Q1.
  pose proof (pow2_pos (rounded c (kappa + 1))) as Q2. fold R1 in Q2.
  pose proof (pow2_pos (rounded c (kappa + 3))) as Q3. fold R3 in Q3.
  pose proof (pow2_pos nb) as Q4. pose proof (pow2_le _ _ (rounded_ge c nb)) as Q5. fold Rn in Q5.
  pose proof (pow2_pos (kappa + 3)) as Q6. pose proof (pow2_le _ _ (rounded_ge c (kappa + 3))) as Q7. fold R3 in Q7.
  pose proof (pow2_pos (kappa + 1)) as Q8. pose proof (pow2_le _ _ (rounded_ge c (kappa + 1))) as Q9. fold R1 in Q9.
  assert (B0 : Rn * s + R1 + 8 * s + 2 * R3 + 2 * Rn <= p).
  { destruct (HP 0) as (A1 & A2); [unfold exp_in; lia|]. lia. }
  assert (B1 : Rn <= Rn * s) by nia.
  unfold log_element. cbv zeta. fold s. rewrite log_tol.
  assert (RX : forall z, - Rn <= z < Rn -> acc (range_check p c (enc p z) nb) tt <-> rci c nb z).
  { intros z Hz. apply rc_int; auto; fold Rn; lia. }
  split.
  - intros H. a_hint H y0 Hy0. encp. a_rc H H1. a_rc H H2. apply RX in H1; [|lia]. revert H2. encp. intros H2. apply RX in H2; [|lia].
    split; [auto|]. split; [auto|].
    apply accepts_bind in H as (e & He & H).
    assert (bls : bit_length s = (kappa + 1)%nat) by apply bit_length_pow2.
    pose proof He as He'. apply verify_exp_acc in He' as (Hep & Y & r & HY & -> & Hr & Er); auto; rewrite ?bls; auto; try lia.
    rewrite bls in Hr. fold s in Er.
    assert (Hin : exp_in Y) by exact HY. destruct (HP Y Hin) as (A1 & A2).
    a_rc H H3. a_rc H H4. apply accepts_ret in H. subst y.
    rewrite <- (enc_id p e) in H3, H4 by lia. revert H3 H4. encp. intros H3 H4.
    apply rc_of in H3 as (t & Ht & Et); auto; [|fold R3; lia|apply enc_range; lia].
    assert (B3 : - R1 < r < R1) by (unfold rci in Hr; fold R1 in Hr; lia).
    assert (B4 : - R3 < t < R3) by (unfold rci in Ht; fold R3 in Ht; lia).
    exists Y, r, t. split; [auto|]. split; [auto|]. split; [auto|]. split; [auto|]. split.
    + rewrite <- sub_enc, Et, sub_enc in H4. replace (2 * (2 * s) - t) with (4 * s - t) in H4 by lia.
      apply rc_int in H4; auto; fold R3; lia.
    + apply (enc_inj p); [lia| |].
      * transitivity (sub p (enc p (e * s + r)) (enc p r)); [rewrite Er, sub_enc; f_equal; lia|].
        rewrite sub_enc. transitivity (add p (enc p (e * s - X * s + 2 * s)) (enc p (X * s - 2 * s))); [rewrite add_enc; f_equal; lia|].
        rewrite Et, add_enc. f_equal. lia.
      * assert (s * X <= s * Rn) by (apply Z.mul_le_mono_nonneg_l; lia).
        assert (s * (- Rn) <= s * X) by (apply Z.mul_le_mono_nonneg_l; lia). lia.
  - intros (H1 & H2 & Y & r & t & -> & Hin & Hr & Ht & Ht2 & Eq).
    destruct (exp_ex Y r Hin Hr) as (e & He & Hep & Er). destruct (HP Y Hin) as (A1 & A2).
    g_hint (enc p Y); [apply enc_range; lia|]. encp.
    g_unit; [apply RX; auto; lia|]. g_unit; [apply RX; auto; lia|].
    apply accepts_bind. exists e. split; [auto|].
    rewrite <- (enc_id p e) by lia. encp.
    assert (Et : enc p (e * s - X * s + 2 * s) = enc p t).
    { transitivity (sub p (enc p (s * e + r)) (enc p (r + X * s - 2 * s))); [rewrite sub_enc; f_equal; lia|].
      rewrite Er, sub_enc. f_equal. lia. }
    rewrite <- sub_enc, Et, sub_enc. replace (2 * (2 * s) - t) with (4 * s - t) by lia.
    g_unit; [apply rc_slack; auto; fold R3; try lia; auto|].
    g_unit; [apply rc_slack; auto; fold R3; try lia; auto|]. reflexivity.
Qed.

Theorem log_sound X y K : - Rn < X < Rn ->
  (forall Y, exp_in Y -> 0 <= P Y /\ P Y + Rn * s + R1 + 8 * s + 2 * R3 + 2 * Rn <= p) ->
  R1 <= K * s ->
  acc (log_element p c kappa nb tb (enc p X)) y ->
  exists Y, y = enc p Y /\ exp_in Y /\ Z.abs (P Y - s * X) <= (K + 6) * s.
Proof using Hprime Hc Htb Hwc Hws Hp1 Hp2 Hp3 Hwn Hw3.
  intros HX HP K1 H. apply log_acc in H as (_ & _ & Y & r & t & -> & Hin & Hr & Ht & Ht2 & Eq); auto.
  exists Y. split; [auto|]. split; [auto|]. destruct ex_s as (P1 & _).
  unfold rci in Hr, Ht, Ht2. fold R1 in Hr. fold R3 in Ht, Ht2.
  pose proof (pow2_1 kappa) as E1. fold s in E1.
  assert (E2 : pow2 (kappa + 3) = 8 * s). { rewrite pow2_add. fold s. change (pow2 3) with 8. lia. }
  rewrite E1 in Hr. rewrite E2 in Ht, Ht2.
  pose proof (pow2_le _ _ (rounded_ge c (kappa + 1))) as Q9. fold R1 in Q9. rewrite E1 in Q9.
  nia.
Qed.

(** The honest prover for a given answer of the hint. *)
Theorem log_run X N : 1 <= X < pow2 nb -> exp_in N -> 0 <= P N < p -> Rn <= p -> R3 <= p ->
  (forall k, - pow2 (tb - 1) <= k < pow2 (tb - 1) -> G 1 [enc p k; const p (pow2 kappa)] 1 = Some [enc p (E k)]) ->
  G 19 [enc p X; const p (pow2 kappa)] 1 = Some [enc p N] ->
  Z.abs (P N / s - X) <= 2 ->
  rn (log_element p c kappa nb tb (enc p X)) = Some (enc p N).
Proof using Hprime Hc Htb Hwc Hws Hp1 Hp2 Hp3 Hwn Hw3.
  intros HX HN HP B1 B2 HG1 HG Hd. destruct ex_s as (P1 & P2 & P3 & P4).
  assert (E2 : pow2 (kappa + 3) = 8 * s). { rewrite pow2_add. fold s. change (pow2 3) with 8. lia. }
  unfold log_element. cbv zeta. fold s. rewrite log_tol.
  fold s in HG. rewrite run_bind, (rn_custom c F G 19 _ _ HG).
  rewrite run_bind, rn_rc by (auto; apply rci_full; auto; lia).
  encp. rewrite run_bind, rn_rc by (auto; apply rci_full; auto; lia).
  unfold s at 1. rewrite run_bind, exp_run; auto; try lia. fold s.
  encp. rewrite run_bind, rn_rc; auto; [|apply rci_full; auto; rewrite E2; nia].
  rewrite run_bind, rn_rc; auto. apply rci_full; auto; rewrite E2; nia.
Qed.

(** The honest prover fails when the exponential of the rounded logarithm is
    more than 6 away from the input. *)
Theorem log_run_fails X N : 1 <= X < pow2 nb -> exp_in N -> 0 <= P N < p -> Rn <= p -> R3 <= p ->
  (forall k, - pow2 (tb - 1) <= k < pow2 (tb - 1) -> G 1 [enc p k; const p (pow2 kappa)] 1 = Some [enc p (E k)]) ->
  G 19 [enc p X; const p (pow2 kappa)] 1 = Some [enc p N] ->
  6 <= Z.abs (P N / s - X) -> s * (Z.abs (P N / s - X) + 4) + R3 <= p ->
  rn (log_element p c kappa nb tb (enc p X)) = None.
Proof using Hprime Hc Htb Hwc Hws Hp1 Hp2 Hp3 Hwn Hw3.
  intros HX HN HP B1 B2 HG1 HG Hd Hb. destruct ex_s as (P1 & P2 & P3 & P4).
  assert (E2 : pow2 (kappa + 3) = 8 * s). { rewrite pow2_add. fold s. change (pow2 3) with 8. lia. }
  pose proof (pow2_le _ _ (rounded_ge c (kappa + 3))) as Q7. fold R3 in Q7. rewrite E2 in Q7.
  assert (Hpc : pow2 c <= p) by (apply (pow2_c_le c p (kappa + 3)); auto; lia).
  unfold log_element. cbv zeta. fold s. rewrite log_tol.
  fold s in HG. rewrite run_bind, (rn_custom c F G 19 _ _ HG).
  rewrite run_bind, rn_rc by (auto; apply rci_full; auto; lia).
  encp. rewrite run_bind, rn_rc by (auto; apply rci_full; auto; lia).
  unfold s at 1. rewrite run_bind, exp_run; auto; try lia. fold s.
  encp. set (d := P N / s - X) in *. replace (P N / s * s - X * s + 2 * s) with (s * (d + 2)) by (unfold d; ring).
  replace (2 * (2 * s) - s * (d + 2)) with (s * (2 - d)) by ring.
  rewrite run_bind. destruct (rn (range_check p c (enc p (s * (d + 2))) (kappa + 3))) as [u|] eqn:E3; [|reflexivity].
  apply rc_run_acc in E3; auto. apply rc_int in E3; auto; fold R3; [|rewrite E2; nia]. unfold rci in E3. rewrite E2 in E3.
  rewrite run_bind. destruct (rn (range_check p c (enc p (s * (2 - d))) (kappa + 3))) as [u'|] eqn:E4; [|reflexivity].
  apply rc_run_acc in E4; auto. apply rc_int in E4; auto; fold R3; [|rewrite E2; nia]. unfold rci in E4. rewrite E2 in E4.
  exfalso. nia.
Qed.
End Log.
End E.
