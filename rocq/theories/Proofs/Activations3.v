(** Gelu, Erf. *)
From Coq Require Import ZArith List Bool Znumtheory Lia.
From Verif Require Import Spec.Numbers Spec.HonestProver Model.Builder Model.Gadgets Model.Layers Model.Activations
  Proofs.Builder Proofs.RangeCheck Proofs.Gadgets Proofs.Division Proofs.Layers Proofs.Layers2 Proofs.ExpLookup
  Proofs.HonestRun Proofs.Activations1 Proofs.Activations2.
Import ListNotations.
Local Open Scope Z_scope.

Lemma inv_ex p m : prime p -> 0 < m < p -> exists y, 0 <= y < p /\ (m * y) mod p = 1.
Proof.
  intros Hprime Hm. pose proof (prime_ge_2 _ Hprime).
  assert (Hrel : rel_prime m p). { apply rel_prime_sym, prime_rel_prime; auto. intros D. apply Z.divide_pos_le in D; lia. }
  apply rel_prime_bezout in Hrel as [u w Huw].
  exists (u mod p). split; [apply Z.mod_pos_bound; lia|]. rewrite Zmult_mod_idemp_r.
  replace (m * u) with (1 + (- w) * p) by (replace (m * u) with (u * m) by ring; lia). rewrite Z_mod_plus_full. apply Z.mod_small. lia.
Qed.

Section E.
Variable p : Z.
Hypothesis Hprime : prime p.
Variable c : nat.
Hypothesis Hc : (0 < c)%nat.
Variables tb kappa : nat.
Variable E : Z -> Z.
Let s := pow2 kappa.
Notation F := (exp_tables p tb E).
Variable G : nat -> list Z -> nat -> option (list Z).
Notation acc := (accepts p (table_rows c F)).
Notation rn := (run (honest_with G) (table_rowsb c F)).
Notation P := (exp_product tb E).
Hypothesis Htb : (2 <= tb)%nat.
Hypothesis Hwc : width_ok c (tb / 2).
Hypothesis Hws : width_ok c (kappa + 1).
Hypothesis Hp1 : 2 * pow2 tb <= p.
Hypothesis Hp2 : pow2 (rounded c (tb / 2)) <= p.
Hypothesis Hp3 : pow2 (rounded c (kappa + 1)) <= p.

Ltac encp := change (const p) with (enc p) in *; repeat (rewrite add_enc || rewrite sub_enc || rewrite mul_enc).

Lemma rc_in n z : width_ok c n -> pow2 (rounded c n) <= p -> rci c n z -> acc (range_check p c (enc p z) n) tt.
Proof. intros Hw Hr H. apply rc_int; auto. unfold rci in H. lia. Qed.

(** ** Division with an unchecked quotient *)
Lemma rem_ok num den q r rb : width_ok c rb -> pow2 (rounded c rb) <= p -> rci c rb r ->
  enc p (q * den + r) = enc p num ->
  acc (div_rem p c (enc p num) (enc p den) rb) (enc p q).
Proof.
  intros Hw Hr Hrc He. pose proof (prime_ge_2 _ Hprime) as H2. unfold div_rem, unconstrained_int_div, unconstrained_mod.
  g_hint (enc p q); [apply enc_range; lia|].
  g_hint (enc p r); [apply enc_range; lia|].
  g_unit; [apply accepts_assert_eq; rewrite mul_enc, add_enc; auto|].
  g_unit; [apply rc_in; auto|]. reflexivity.
Qed.

Lemma rem_run num den rb : width_ok c rb -> pow2 (rounded c rb) <= p -> 0 < den <= pow2 rb -> den < p -> 0 <= num < p ->
  rn (div_rem p c num den rb) = Some (num / den).
Proof.
  intros Hw Hr Hd Hd2 Hn. unfold div_rem.
  rewrite run_bind, (rn_div p c Hc F G) by lia. rewrite run_bind, (rn_mod p c Hc F G) by lia.
  pose proof (Z.mod_pos_bound num den ltac:(lia)) as Bm.
  rewrite run_bind, rn_eq.
  2:{ rewrite <- (enc_id p (num / den)) by (split; [apply Z.div_pos; lia|apply Z.div_lt_upper_bound; nia]).
      rewrite <- (enc_id p den) at 2 by lia. rewrite <- (enc_id p (num mod den)) by lia.
      rewrite mul_enc, add_enc. rewrite Z.mul_comm, <- Z.div_mod by lia. apply enc_id. lia. }
  rewrite run_bind. rewrite <- (enc_id p (num mod den)) at 1 by lia. rewrite rn_rc; auto.
  unfold rci. pose proof (pow2_le rb (rounded c rb) (rounded_ge c rb)). lia.
Qed.

Lemma rem_run_enc num den rb : width_ok c rb -> pow2 (rounded c rb) <= p -> 0 < den <= pow2 rb -> den < p -> 0 <= num < p ->
  rn (div_rem p c (enc p num) (enc p den) rb) = Some (enc p (num / den)).
Proof.
  intros Hw Hr Hd Hd2 Hn. rewrite (enc_id p num), (enc_id p den) by lia. rewrite rem_run; auto. rewrite enc_id; auto.
  split; [apply Z.div_pos; lia|]. apply Z.le_lt_trans with num; [|lia]. apply Z.div_le_upper_bound; nia.
Qed.

Lemma P0 : E 0 = s -> P 0 = s * s.
Proof. intros H. unfold exp_product. rewrite Zmod_0_l, Zdiv_0_l. cbn [Z.mul]. rewrite H. reflexivity. Qed.

Lemma exp0_acc : E 0 = s -> acc (verify_exp p c tb (pow2 kappa) (enc p 0)) (enc p s).
Proof.
  intros H. destruct (ex_s p c Hc tb kappa Htb Hp3) as (P1 & P2 & P3 & P4). fold s in P1, P2.
  apply (exp_acc p Hprime c Hc tb kappa E Htb Hwc Hws Hp1 Hp2 Hp3); [change (Z.abs 0) with 0; lia|].
  split; [unfold exp_in; lia|]. split; [apply enc_range; lia|].
  exists 0. split.
  - unfold rci. pose proof (pow2_le _ _ (rounded_ge c (kappa + 1))). pose proof (pow2_pos (kappa + 1)). lia.
  - rewrite (P0 H). fold s. rewrite Z.add_0_r. apply Zmult_mod_idemp_r.
Qed.

(** ** Gelu *)
Section Gelu.
Variables coef outer : Z.
Hypothesis Hk : (1 <= kappa)%nat.
Hypothesis Hwk : width_ok c kappa.
Hypothesis Hwkk : width_ok c (2 * kappa).
Hypothesis Hw4 : width_ok c (kappa + 4).
Hypothesis Hr1 : pow2 (rounded c kappa) <= p.
Hypothesis Hr2 : pow2 (rounded c (2 * kappa)) <= p.
Hypothesis Hr4 : pow2 (rounded c (kappa + 4)) <= p.
Hypothesis Hss : s * s < p.

Lemma gelu_tol : np2_bits (2 * (5 * s)) = (kappa + 4)%nat.
Proof.
  replace (kappa + 4)%nat with (kappa + 3 + 1)%nat by lia. apply np2_bits_eq.
  rewrite !pow2_add. fold s. change (pow2 3) with 8. change (pow2 1) with 2. pose proof (pow2_pos kappa) as HH. fold s in HH. lia.
Qed.

(** The output is not range checked: input 0 accepts 1 / (2 * scale). *)
Theorem gelu_garbage : E 0 = s -> exists y, acc (gelu_element p c kappa tb coef outer 0) y /\ (2 * s * y) mod p = 1.
Proof.
  intros HE. pose proof (prime_ge_2 _ Hprime) as H2.
  destruct (ex_s p c Hc tb kappa Htb Hp3) as (P1 & P2 & P3 & P4). fold s in P1, P2.
  pose proof (pow2_pos kappa) as Ps. fold s in Ps.
  assert (R16 : 16 * s <= pow2 (rounded c (kappa + 4))).
  { pose proof (pow2_le _ _ (rounded_ge c (kappa + 4))) as H. rewrite (pow2_add kappa 4) in H. change (pow2 4) with 16 in H. fold s in H. lia. }
  destruct (inv_ex p (2 * s) Hprime ltac:(lia)) as (y & Hy & Ey').
  exists y. split; [|exact Ey'].
  unfold gelu_element. cbv zeta. fold s. rewrite gelu_tol.
  g_hint y; [auto|].
  assert (Z0 : forall n, rci c n 0).
  { intros n. unfold rci. pose proof (pow2_le _ _ (rounded_ge c n)). pose proof (pow2_pos n). lia. }
  replace 0 with (enc p 0) by (apply enc_id; lia). encp.
  apply accepts_bind. exists (enc p 0). split; [apply rem_ok with (r := 0); auto|]. encp.
  apply accepts_bind. exists (enc p 0). split; [apply rem_ok with (r := 0); auto; f_equal; lia|]. encp.
  apply accepts_bind. exists (enc p 0). split; [apply rem_ok with (r := 0); auto; f_equal; lia|]. encp.
  apply accepts_bind. exists (enc p s). split; [apply exp0_acc; auto|]. encp.
  g_unit; [|reflexivity].
  rewrite (mul_enc_r p y). encp.
  replace (enc p (y * (s + s) - 0 * s + 5 * s)) with (enc p (1 + 5 * s)).
  - apply rc_in; auto. unfold rci. rewrite (pow2_add kappa 4). change (pow2 4) with 16. fold s. lia.
  - replace (y * (s + s) - 0 * s + 5 * s) with (2 * s * y + 5 * s) by lia.
    unfold enc. rewrite <- Ey'. apply Zplus_mod_idemp_l.
Qed.

(** The honest prover on non-negative inputs. *)
Definition gelu_z (X : Z) : Z := outer * (X + coef * (X * X / s * X) / (s * s)) / s.

Theorem gelu_run X N : 0 <= X -> 0 <= coef -> 0 <= outer ->
  X * X < p -> coef * (X * X / s * X) < p -> outer * (X + coef * (X * X / s * X) / (s * s)) < p ->
  exp_in tb (- gelu_z X) -> 0 <= P (- gelu_z X) < p -> P (- gelu_z X) / s < 9 * s ->
  (forall k, - pow2 (tb - 1) <= k < pow2 (tb - 1) -> G 1 [enc p k; const p (pow2 kappa)] 1 = Some [enc p (E k)]) ->
  G 16 [enc p X; const p (pow2 kappa)] 1 = Some [enc p N] ->
  2 * Z.abs (N * (s + P (- gelu_z X) / s) - X * s) <= s + P (- gelu_z X) / s ->
  rn (gelu_element p c kappa tb coef outer (enc p X)) = Some (enc p N).
Proof.
  intros HX Hco Hou B1 B2 B3 Hin HP HP9 HE HG HN. pose proof (prime_ge_2 _ Hprime) as H2.
  destruct (ex_s p c Hc tb kappa Htb Hp3) as (P1 & P2 & P3 & P4). fold s in P1, P2.
  assert (Pkk : pow2 (2 * kappa) = s * s) by (replace (2 * kappa)%nat with (kappa + kappa)%nat by lia; apply pow2_add).
  unfold gelu_element. cbv zeta. fold s. rewrite gelu_tol.
  fold s in HG. rewrite run_bind, (rn_custom c F G 16 _ _ HG). encp.
  set (q1 := X * X / s) in *.
  assert (Q1 : 0 <= q1) by (apply Z.div_pos; [apply Z.mul_nonneg_nonneg; auto|lia]).
  assert (Q1X : 0 <= coef * (q1 * X)) by (apply Z.mul_nonneg_nonneg; [auto|apply Z.mul_nonneg_nonneg; auto]).
  assert (Pss : 0 < s * s) by (apply Z.mul_pos_pos; auto).
  assert (Pk : 0 < s <= pow2 kappa) by (unfold s; pose proof (pow2_pos kappa); lia).
  assert (XX : 0 <= X * X < p) by (split; [apply Z.mul_nonneg_nonneg; auto|auto]).
  assert (Sp : s < p) by lia.
  rewrite run_bind, (rem_run_enc (X * X) s kappa Hwk Hr1 Pk Sp XX). fold q1. encp.
  assert (Pkk' : 0 < s * s <= pow2 (2 * kappa)) by lia.
  rewrite run_bind, (rem_run_enc _ _ _ Hwkk Hr2 Pkk' Hss (conj Q1X B2)).
  set (q2 := coef * (q1 * X) / (s * s)) in *.
  assert (Q2 : 0 <= q2) by (apply Z.div_pos; auto).
  encp.
  assert (B4 : 0 <= outer * (X + q2)) by (apply Z.mul_nonneg_nonneg; lia).
  rewrite run_bind, (rem_run_enc _ _ _ Hwk Hr1 Pk Sp (conj B4 B3)).
  change (outer * (X + q2) / s) with (gelu_z X). set (z := gelu_z X) in *. encp.
  replace (0 - z) with (- z) by lia.
  rewrite run_bind.
  change (rn (verify_exp p c tb s (enc p (- z)))) with (rn (verify_exp p c tb (pow2 kappa) (enc p (- z)))).
  rewrite (exp_run p Hprime c Hc tb kappa E G Htb Hwc Hws Hp1 Hp2 Hp3 (- z) Hin HP HE). fold s. encp.
  set (e := P (- z) / s) in *.
  rewrite run_bind, rn_rc; auto.
  unfold rci. pose proof (pow2_le _ _ (rounded_ge c (kappa + 4))) as H. rewrite (pow2_add kappa 4) in H |- *. change (pow2 4) with 16 in H |- *. fold s in H |- *. lia.
Qed.
End Gelu.

(** ** Erf *)
Section Erf.
Variable k : erf_consts.
Variable nb : nat.
Hypothesis Hw3 : width_ok c (kappa + 3).
Hypothesis Hwn : width_ok c (nb + 1).
Hypothesis Hr3 : pow2 (rounded c (kappa + 3)) <= p.
Hypothesis Hrn : pow2 (rounded c (nb + 1)) <= p.
Hypothesis Hkn : (kappa < nb)%nat.

Lemma erf_tol : np2_bits (2 * (4 * s)) = (kappa + 3)%nat.
Proof.
  replace (kappa + 3)%nat with (kappa + 2 + 1)%nat by lia. apply np2_bits_eq.
  rewrite !pow2_add. fold s. change (pow2 2) with 4. change (pow2 1) with 2. pose proof (pow2_pos kappa) as HH. fold s in HH. lia.
Qed.

(** Whatever the polynomial evaluates to, the output is free in [-s, s]. *)
Theorem erf_free x ax sg V Y : acc (erf_abs p c nb x) (ax, enc p sg) -> sg = 1 \/ sg = -1 ->
  acc (erf_poly p c kappa nb tb k ax) (enc p V) -> - (3 * s) < V < 3 * s -> - s <= Y <= s ->
  acc (erf_element p c kappa nb tb k x) (enc p Y).
Proof.
  intros Hax Hsg Hv HV HY. pose proof (prime_ge_2 _ Hprime) as H2.
  pose proof (pow2_pos kappa) as Ps. fold s in Ps.
  assert (R8 : 8 * s <= pow2 (rounded c (kappa + 3)) /\ pow2 (kappa + 3) = 8 * s).
  { pose proof (pow2_le _ _ (rounded_ge c (kappa + 3))) as H. rewrite (pow2_add kappa 3) in H |- *. change (pow2 3) with 8 in H |- *. fold s in H |- *. lia. }
  pose proof (pow2_le _ _ (rounded_ge c (nb + 1))) as Rn. rewrite pow2_1 in Rn.
  pose proof (pow2_lt _ _ Hkn) as Rk. fold s in Rk.
  unfold erf_element. cbv zeta. fold s. rewrite erf_tol.
  g_hint (enc p Y); [apply enc_range; lia|].
  apply accepts_bind. exists (ax, enc p sg). split; [auto|]. cbn [fst snd].
  apply accepts_bind. exists (enc p V). split; [auto|]. encp.
  g_unit; [apply rc_in; auto; unfold rci; nia|].
  g_unit; [apply rc_in; auto; unfold rci; nia|].
  g_unit; [apply rc_in; auto; unfold rci; rewrite pow2_1|].
  - lia.
  - g_unit; [apply rc_in; auto; unfold rci; rewrite pow2_1|reflexivity]. lia.
Qed.

(** Accepted outputs lie in [-s, s] when the width is a multiple of the chunk. *)
Theorem erf_range x y : ((nb + 1) mod c = 0)%nat -> 2 * pow2 (nb + 1) <= p ->
  acc (erf_element p c kappa nb tb k x) y -> exists Y, - s <= Y <= s /\ y = enc p Y.
Proof.
  intros Hm Hsz H. pose proof (prime_ge_2 _ Hprime) as H2.
  pose proof (pow2_pos kappa) as Ps. fold s in Ps. pose proof (pow2_lt _ _ Hkn) as Rk. fold s in Rk. pose proof (pow2_1 nb) as E1.
  assert (Hr' : pow2 (rounded c (nb + 1)) <= p) by (rewrite rounded_exact by auto; pose proof (pow2_pos (nb + 1)); lia).
  unfold erf_element in H. cbv zeta in H. fold s in H.
  a_hint H y0 Hy0. apply accepts_bind in H as (ax & _ & H). apply accepts_bind in H as (v & _ & H).
  a_rc H r1. a_rc H r2. a_rc H r3. a_rc H r4. cbn in H. subst y0.
  clear r1 r2.
  apply rc_of in r3; auto; [|apply Z.mod_pos_bound; lia]. destruct r3 as (Y1 & R3 & E3).
  apply add_solve in E3; auto. subst y. change (const p s) with (enc p s) in r4. rewrite sub_enc in r4.
  apply rc_of in r4; auto; [|apply enc_range; lia]. destruct r4 as (Y2 & R4 & E4).
  apply rci_ex in R3; auto. apply rci_ex in R4; auto.
  apply enc_inj in E4; [|lia|lia].
  exists (Y1 - s). split; [lia|reflexivity].
Qed.

(** The honest witness for input 0. *)
Hypothesis Hwk : width_ok c kappa.
Hypothesis Hwn0 : width_ok c nb.
Hypothesis Hw2 : width_ok c (kappa + 2).
Hypothesis Hrk : pow2 (rounded c kappa) <= p.
Hypothesis Hrn0 : pow2 (rounded c nb) <= p.
Hypothesis Hr2 : pow2 (rounded c (kappa + 2)) <= p.

Definition erf_at0 : Z := s - (e_a1 k + (e_a3 k + e_a5 k)) + (e_a2 k + e_a4 k).

Lemma erf_zero : E 0 = s ->
  acc (erf_abs p c nb 0) (0, enc p 1) /\ acc (erf_poly p c kappa nb tb k 0) (enc p erf_at0).
Proof.
  intros HE. pose proof (prime_ge_2 _ Hprime) as H2.
  pose proof (pow2_pos kappa) as Ps. fold s in Ps.
  assert (Z0 : forall n, rci c n 0).
  { intros n. unfold rci. pose proof (pow2_le _ _ (rounded_ge c n)). pose proof (pow2_pos n). lia. }
  assert (T2 : np2_bits (2 * (2 * s)) = (kappa + 2)%nat) by (apply (sig_tol p c Hc tb kappa Htb Hp3)).
  assert (R4 : pow2 (kappa + 2) = 4 * s) by (rewrite pow2_add; change (pow2 2) with 4; fold s; lia).
  pose proof (pow2_le _ _ (rounded_ge c (kappa + 2))) as R4'.
  pose proof (pow2_lt _ _ Hkn) as Rk. fold s in Rk. pose proof (pow2_le _ _ (rounded_ge c nb)) as Rn.
  split.
  - unfold erf_abs. apply accepts_bind. exists [0; 1]. split.
    { apply accepts_hintn. split; [reflexivity|]. repeat constructor; lia. }
    cbn [nth]. g_unit; [apply accepts_assert_bool; auto; lia|].
    g_unit.
    { apply accepts_assert_eq. unfold mul. rewrite Z.mul_0_r. apply Z.mod_0_l. lia. }
    g_unit; [|].
    { rewrite <- (enc_id p 0) at 1 by lia. apply rc_in; auto. }
    cbn. f_equal. replace 1 with (enc p 1) at 1 2 by (apply enc_id; lia). encp. reflexivity.
  - unfold erf_poly. cbv zeta. fold s. rewrite T2.
    replace 0 with (enc p 0) by (apply enc_id; lia). encp.
    apply accepts_bind. exists (enc p 0). split; [apply rem_ok with (r := 0); auto; f_equal; lia|]. encp.
    apply accepts_bind. exists (enc p s). split; [apply rem_ok with (r := 0); auto; f_equal; lia|]. encp.
    g_unit; [apply rc_in; auto; unfold rci; lia|].
    g_unit; [apply rc_in; auto; unfold rci; lia|].
    g_unit; [apply rc_in; auto; unfold rci; lia|].
    apply accepts_bind. exists (enc p s). split; [apply rem_ok with (r := 0); auto; f_equal; lia|]. encp.
    apply accepts_bind. exists (enc p (e_a5 k)). split; [apply rem_ok with (r := 0); auto; f_equal; lia|]. encp.
    apply accepts_bind. exists (enc p (e_a3 k + e_a5 k)). split; [apply rem_ok with (r := 0); auto; f_equal; lia|]. encp.
    apply accepts_bind. exists (enc p (e_a1 k + (e_a3 k + e_a5 k))). split; [apply rem_ok with (r := 0); auto; f_equal; lia|]. encp.
    apply accepts_bind. exists (enc p (e_a4 k)). split; [apply rem_ok with (r := 0); auto; f_equal; lia|]. encp.
    apply accepts_bind. exists (enc p (e_a2 k + e_a4 k)). split; [apply rem_ok with (r := 0); auto; f_equal; lia|]. encp.
    apply accepts_bind. exists (enc p 0). split; [apply rem_ok with (r := 0); auto; f_equal; lia|]. encp.
    apply accepts_bind. exists (enc p s). split; [apply exp0_acc; auto|]. encp.
    apply accepts_bind. exists (enc p (e_a1 k + (e_a3 k + e_a5 k))). split; [apply rem_ok with (r := 0); auto; f_equal; lia|]. encp.
    apply accepts_bind. exists (enc p (e_a2 k + e_a4 k)). split; [apply rem_ok with (r := 0); auto; f_equal; lia|]. encp.
    reflexivity.
Qed.
End Erf.
End E.
