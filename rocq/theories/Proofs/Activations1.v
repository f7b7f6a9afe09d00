(** Sqrt, LeakyRelu, HardSwish, Sin/Cos. *)
From Coq Require Import ZArith List Bool Znumtheory Lia Setoid Morphisms.
From Verif Require Import Spec.Numbers Spec.HonestProver Model.Builder Model.Gadgets Model.Layers Model.Activations
  Proofs.Builder Proofs.RangeCheck Proofs.Gadgets Proofs.Division Proofs.Layers Proofs.Layers2 Proofs.ExpLookup
  Proofs.HonestRun Proofs.Rescale Proofs.RescaleArray.
Import ListNotations.
Local Open Scope Z_scope.

Ltac encs := repeat (rewrite const_enc || rewrite add_enc || rewrite sub_enc || rewrite mul_enc).

Lemma np2_bits_eq v m : pow2 m < v <= pow2 (m + 1) -> np2_bits v = (m + 1)%nat.
Proof.
  intros H. pose proof (pow2_pos m). unfold np2_bits, bit_length. destruct (Z.eqb_spec (v - 1) 0).
  - assert (pow2 m = 1) by lia. unfold pow2, zn in *. destruct m; [cbn; lia|].
    exfalso. rewrite Nat2Z.inj_succ, Z.pow_succ_r in * by lia. lia.
  - rewrite (Z.log2_unique (v - 1) (Z.of_nat m)); [lia|lia|].
    rewrite pow2_add in H. change (pow2 1) with 2 in H. unfold pow2, zn in *.
    rewrite Z.pow_succ_r by lia. lia.
Qed.
Lemma mul_enc_l p x y : mul p (const p x) y = enc p (x * y).
Proof. unfold mul, const, enc. apply Zmult_mod_idemp_l. Qed.
Lemma mul_enc_r p x y : mul p x (enc p y) = enc p (x * y).
Proof. unfold mul, enc. apply Zmult_mod_idemp_r. Qed.
Lemma rci_ex c n x : (n mod c = 0)%nat -> rci c n x <-> 0 <= x < pow2 n.
Proof. apply (rci_exact c (fun _ => [])). Qed.
Lemma dbl c m : (0 < c)%nat -> (m mod c <> 0)%nat -> 2 * pow2 m <= pow2 (rounded c m).
Proof. intros Hc. apply (rounded_double c Hc [0; 0]). cbn. lia. Qed.
Lemma pow2_1 n : pow2 (n + 1) = 2 * pow2 n.
Proof. rewrite pow2_add. change (pow2 1) with 2. lia. Qed.
Lemma pow2_c_le c p n : (0 < c)%nat -> (0 < n)%nat -> pow2 (rounded c n) <= p -> pow2 c <= p.
Proof.
  intros Hc Hn H. destruct (rounded_mult c n Hc) as (k & Hk).
  assert (0 < k)%nat by (destruct k; [pose proof (rounded_ge c n); lia|lia]).
  pose proof (pow2_le c (rounded c n) ltac:(nia)). lia.
Qed.

Section S.
Variable p : Z.
Hypothesis Hprime : prime p.
Variable c : nat.
Hypothesis Hc : (0 < c)%nat.
Variable F : nat -> list (list Z).
Variable G : nat -> list Z -> nat -> option (list Z).
Notation acc := (accepts p (table_rows c F)).
Notation rn := (run (honest_with G) (table_rowsb c F)).

Section Sqrt.
Variables kappa nb : nat.
Hypothesis Hw : width_ok c nb.
Hypothesis Hw1 : width_ok c (nb + 1).
Let R := pow2 (rounded c nb).
Let R1 := pow2 (rounded c (nb + 1)).
Hypothesis Hbig : 2 * (R * pow2 kappa + R * R + 2 * R + R1) <= p.

Lemma sq_pos : 0 < R /\ 0 < R1 /\ pow2 nb <= R /\ pow2 (nb + 1) <= R1 /\ 0 < pow2 nb /\ 0 < pow2 (nb + 1) /\ 0 < pow2 kappa.
Proof using Hc.
  pose proof (pow2_pos nb). pose proof (pow2_pos (nb + 1)). pose proof (pow2_pos kappa).
  pose proof (pow2_le _ _ (rounded_ge c nb)). pose proof (pow2_le _ _ (rounded_ge c (nb + 1))).
  unfold R, R1. repeat split; try lia; apply pow2_pos.
Qed.

Lemma sqrt_acc X y : - R < X < R ->
  acc (sqrt_element p c kappa nb (enc p X)) y <->
  exists Y, y = enc p Y /\ rci c nb X /\ rci c nb Y /\
    rci c (nb + 1) (X * pow2 kappa - Y * Y) /\ rci c (nb + 1) (2 * Y - (X * pow2 kappa - Y * Y)).
Proof using Hprime Hc Hw Hw1 Hbig.
  intros HX. destruct sq_pos as (P1 & P2 & P3 & P4 & P5 & P6 & P7).
  pose proof (prime_ge_2 _ Hprime) as Hp2.
  assert (HR : R <= p) by nia. assert (HR1 : R1 <= p) by nia.
  assert (Hrx : acc (range_check p c (enc p X) nb) tt <-> rci c nb X).
  { apply rc_int; auto; fold R; try lia. }
  assert (Hb : forall Y, rci c nb Y -> - R < Y < R) by (unfold rci; fold R; intros; lia).
  assert (Hr1 : forall Y, rci c nb Y ->
     - (R * pow2 kappa + R * R) < X * pow2 kappa - Y * Y < R * pow2 kappa) by (intros Y HY; apply Hb in HY; nia).
  assert (Hr : forall Y, rci c nb Y ->
     acc (range_check p c (enc p (X * pow2 kappa - Y * Y)) (nb + 1)) tt <-> rci c (nb + 1) (X * pow2 kappa - Y * Y)).
  { intros Y HY. apply Hr1 in HY. apply rc_int; auto; fold R1; nia. }
  assert (Hu : forall Y, rci c nb Y ->
     acc (range_check p c (enc p (2 * Y - (X * pow2 kappa - Y * Y))) (nb + 1)) tt <->
     rci c (nb + 1) (2 * Y - (X * pow2 kappa - Y * Y))).
  { intros Y HY. pose proof (Hr1 Y HY). apply Hb in HY. apply rc_int; auto; fold R1; nia. }
  unfold sqrt_element. cbv zeta. split.
  - intros H. a_rc H H1. apply Hrx in H1. a_hint H y0 Hy0. a_rc H H2.
    pose proof H2 as H2'. apply rc_of in H2' as (Y & HY & ->); auto; fold R; try lia.
    revert H. encs. intros H. a_rc H H3. a_rc H H4. apply accepts_ret in H. subst y.
    exists Y. rewrite Hr in H3 by auto. replace (Y + Y) with (2 * Y) in H4 by lia. rewrite Hu in H4 by auto.
    auto.
  - intros (Y & -> & H1 & H2 & H3 & H4).
    g_unit; [apply Hrx; auto|]. g_hint (enc p Y); [apply enc_range; lia|].
    encs. g_unit. { apply rc_int; auto; fold R; apply Hb in H2; lia. }
    g_unit; [apply Hr; auto|]. replace (Y + Y) with (2 * Y) by lia. g_unit; [apply Hu; auto|].
    apply accepts_ret. reflexivity.
Qed.

(** Width nb+1 a multiple of the chunk: exactly the floor of the square root. *)
Theorem sqrt_exact X y : ((nb + 1) mod c = 0)%nat -> - R < X < R ->
  acc (sqrt_element p c kappa nb (enc p X)) y <->
  0 <= X < pow2 nb /\ Z.sqrt (X * pow2 kappa) < pow2 nb /\ y = enc p (Z.sqrt (X * pow2 kappa)).
Proof using Hprime Hc Hw Hw1 Hbig.
  intros Hm HX. rewrite sqrt_acc by auto. destruct sq_pos as (P1 & P2 & P3 & P4 & P5 & P6 & P7).
  assert (E : pow2 (nb + 1) = 2 * pow2 nb) by (rewrite pow2_add; change (pow2 1) with 2; lia).
  split.
  - intros (Y & -> & H1 & H2 & H3 & H4). rewrite rci_ex in H3, H4 by auto.
    assert (Y = Z.sqrt (X * pow2 kappa)). { symmetry. apply Z.sqrt_unique. unfold Z.succ. nia. }
    subst Y. unfold rci in *. repeat split; try lia. nia.
  - intros ((H0 & H0') & H1 & ->). set (N := Z.sqrt (X * pow2 kappa)) in *.
    pose proof (Z.sqrt_spec (X * pow2 kappa) ltac:(nia)) as Hs. fold N in Hs. unfold Z.succ in Hs.
    pose proof (Z.sqrt_nonneg (X * pow2 kappa)) as Hn. fold N in Hn.
    exists N. rewrite !(rci_ex c (nb + 1)) by auto.
    repeat split; try (unfold rci; fold R; lia); try nia.
Qed.

(** The honest prover, whose hint rounds to the nearest integer. *)
Definition sqrt_nearest (v n : Z) : Prop := 0 <= n /\ (n = 0 \/ (2 * n - 1) * (2 * n - 1) <= 4 * v) /\ 4 * v < (2 * n + 1) * (2 * n + 1).

Lemma sqrt_run X N : rci c nb X -> G 10 [enc p X; const p (pow2 kappa)] 1 = Some [enc p N] ->
  rci c nb N -> rci c (nb + 1) (X * pow2 kappa - N * N) -> rci c (nb + 1) (2 * N - (X * pow2 kappa - N * N)) ->
  rn (sqrt_element p c kappa nb (enc p X)) = Some (enc p N).
Proof using Hprime Hc Hw Hw1 Hbig.
  intros H1 HG H2 H3 H4. destruct sq_pos as (P1 & P2 & P3 & P4 & P5 & P6 & P7).
  assert (HR : R <= p) by nia. assert (HR1 : R1 <= p) by nia.
  unfold sqrt_element. cbv zeta. rewrite run_bind, rn_rc by auto.
  rewrite run_bind, (rn_custom c F G 10 _ _ HG). encs.
  rewrite run_bind, rn_rc by auto. rewrite run_bind, rn_rc by auto.
  replace (N + N) with (2 * N) by lia. rewrite run_bind, rn_rc by auto. reflexivity.
Qed.

Theorem sqrt_honest_slack X N : ((nb + 1) mod c <> 0)%nat -> 0 <= X < pow2 nb ->
  G 10 [enc p X; const p (pow2 kappa)] 1 = Some [enc p N] ->
  sqrt_nearest (X * pow2 kappa) N -> 2 * N <= pow2 nb ->
  rn (sqrt_element p c kappa nb (enc p X)) = Some (enc p N).
Proof using Hprime Hc Hw Hw1 Hbig.
  intros Hm HX HG (Hn & Hl & Hu) HN. destruct sq_pos as (P1 & P2 & P3 & P4 & P5 & P6 & P7).
  assert (E : pow2 (nb + 1) = 2 * pow2 nb) by (rewrite pow2_add; change (pow2 1) with 2; lia).
  pose proof (dbl c (nb + 1) Hc Hm) as HD. fold R1 in HD.
  assert (HRb : - N <= X * pow2 kappa - N * N <= N) by nia.
  apply sqrt_run; auto; unfold rci; fold R R1; try lia.
Qed.

(** At exact width the honest run succeeds iff rounding to nearest is rounding down. *)
Theorem sqrt_honest_exact X N : ((nb + 1) mod c = 0)%nat -> 0 <= X < pow2 nb ->
  G 10 [enc p X; const p (pow2 kappa)] 1 = Some [enc p N] -> 0 <= N < pow2 nb ->
  rn (sqrt_element p c kappa nb (enc p X)) = if N =? Z.sqrt (X * pow2 kappa) then Some (enc p N) else None.
Proof using Hprime Hc Hw Hw1 Hbig.
  intros Hm HX HG HN. destruct sq_pos as (P1 & P2 & P3 & P4 & P5 & P6 & P7).
  pose proof (pow2_1 nb) as E.
  assert (HR1 : R1 <= p) by nia.
  assert (Hpc : pow2 c <= p) by (apply (pow2_c_le c p (nb + 1)); auto; lia).
  assert (HNp : 0 <= N < p) by nia.
  destruct (Z.eqb_spec N (Z.sqrt (X * pow2 kappa))) as [HN2|HN2].
  - assert (H : acc (sqrt_element p c kappa nb (enc p X)) (enc p N)).
    { apply sqrt_exact; auto; [lia|]. subst N. split; [lia|]. split; [lia|reflexivity]. }
    apply sqrt_acc in H as (Y & E1 & H1 & H2 & H3 & H4); [|lia].
    apply enc_inj in E1; [subst Y|lia|].
    + apply sqrt_run; auto.
    + unfold rci in H2. fold R in H2. nia.
  - unfold sqrt_element. cbv zeta.
    rewrite run_bind. destruct (rn (range_check p c (enc p X) nb)) as [u1|] eqn:E1; [|reflexivity].
    rewrite run_bind, (rn_custom c F G 10 _ _ HG). encs.
    rewrite run_bind. destruct (rn (range_check p c (enc p N) nb)) as [u2|] eqn:E2; [|reflexivity].
    rewrite run_bind. destruct (rn (range_check p c _ (nb + 1))) as [u3|] eqn:E3; [|reflexivity].
    rewrite run_bind. destruct (rn (range_check p c (enc p (N + N - _)) (nb + 1))) as [u4|] eqn:E4; [|reflexivity].
    exfalso. apply rc_run_acc in E1, E2, E3, E4; auto.
    assert (H : acc (sqrt_element p c kappa nb (enc p X)) (enc p N)).
    { unfold sqrt_element. cbv zeta. g_unit; [auto|]. g_hint (enc p N); [apply enc_range; lia|].
      encs. g_unit; [auto|]. g_unit; [auto|]. g_unit; [auto|]. reflexivity. }
    apply sqrt_exact in H as (_ & H1 & H2); auto; [|lia].
    apply enc_inj in H2; try lia. pose proof (Z.sqrt_nonneg (X * pow2 kappa)). nia.
Qed.
End Sqrt.

(** ** LeakyRelu *)
Section Leaky.
Variables kappa s : nat.
Let nb := (s + 1)%nat.
Variable alpha : Z.
Hypothesis Hk32 : (kappa < 32)%nat.
Hypothesis Hs64 : (s < 64)%nat.
Hypothesis Hw : width_ok c nb.
Hypothesis Hwk : width_ok c kappa.
Hypothesis Hbig : pow2 kappa * pow2 (rounded c nb) + pow2 (rounded c kappa) <= p.
Hypothesis Hsz : 2 * pow2 nb <= p.
Hypothesis Ha : 0 <= alpha <= pow2 kappa.

Definition leaky_result (relu_x X : Z) : Z := relu_x + alpha * (X - relu_x) / pow2 kappa.

Lemma lk_pos : 0 < pow2 kappa /\ 0 < pow2 s /\ pow2 nb = 2 * pow2 s /\ pow2 nb <= pow2 (rounded c nb) /\
  pow2 kappa <= pow2 (rounded c kappa) /\ pow2 (rounded c nb) <= p /\ pow2 (rounded c kappa) <= p.
Proof using Hc Hbig.
  clear - Hc Hbig.
  pose proof (pow2_pos kappa). pose proof (pow2_pos s). pose proof (pow2_1 s). fold nb in H1.
  pose proof (pow2_le _ _ (rounded_ge c nb)). pose proof (pow2_le _ _ (rounded_ge c kappa)). nia.
Qed.

Lemma leaky_range X v : signed_fits s X -> v = 0 \/ v = X ->
  - (pow2 kappa * pow2 s) <= alpha * (X - v) < pow2 kappa * pow2 s.
Proof using Hc Hbig Ha.
  clear - Hc Hbig Ha. intros HX Hr. destruct lk_pos as (P1 & P2 & P3 & P4 & P5 & P6 & P7).
  unfold signed_fits in HX. fold (zn s) in HX. fold (pow2 s) in HX. destruct Hr; subst v; nia.
Qed.

Theorem leaky_acc X y : signed_fits s X ->
  acc (leaky_relu_element p c kappa nb alpha (enc p X)) y <->
  exists v j, (rci c nb (- X) /\ v = 0 \/ rci c nb X /\ v = X) /\ 0 <= j < pow2 (rounded c kappa - kappa) /\
    alpha * (X - v) / pow2 kappa + j < pow2 s /\ y = enc p (leaky_result v X + j).
Proof using Hprime Hc Hk32 Hs64 Hw Hwk Hbig Hsz Ha.
  intros HX. destruct lk_pos as (P1 & P2 & P3 & P4 & P5 & P6 & P7).
  assert (HX' : - pow2 s <= X < pow2 s) by exact HX.
  assert (HrX : forall Z0, Z0 = X \/ Z0 = - X -> acc (range_check p c (enc p Z0) nb) tt <-> rci c nb Z0).
  { intros Z0 HZ. apply rc_int; auto. lia. }
  unfold leaky_relu_element. replace (nb =? 0)%nat with false by (symmetry; apply Nat.eqb_neq; unfold nb; lia).
  cbv zeta. replace (nb - 1)%nat with s by (unfold nb; lia).
  unfold shift_ctx, rescaling_context.
  destruct (Nat.leb_spec 64 s); [lia|]. destruct (Nat.leb_spec 32 kappa); [lia|]. cbn [bind rc_alpha rc_scaled rc_kappa rc_s rc_shift].
  assert (Hstep : forall v, v = 0 \/ v = X ->
    acc (bind (div_pow2 p c (mul p (const p alpha) (sub p (enc p X) (enc p v))) (const p (pow2 kappa))
           (const p (pow2 kappa * pow2 s)) kappa s (const p (pow2 s)))
         (fun a => Ret (add p (enc p v) a))) y <->
    exists j, 0 <= j < pow2 (rounded c kappa - kappa) /\ alpha * (X - v) / pow2 kappa + j < pow2 s /\
      y = enc p (leaky_result v X + j)).
  { intros v Hv. rewrite sub_enc, (const_enc p alpha), mul_enc. pose proof (leaky_range X v HX Hv) as HR.
    unfold div_pow2. fold (dp p c kappa s (alpha * (X - v)) true). unfold leaky_result. split.
    - intros H1. apply accepts_bind in H1 as (a & H1 & H2). apply accepts_ret in H2.
      apply div_pow2_values in H1 as (j & J1 & J2 & ->); auto. exists j. rewrite add_enc in H2.
      rewrite <- H2. repeat split; auto; try lia. f_equal. lia.
    - intros (j & J1 & J2 & ->). apply accepts_bind. exists (enc p (alpha * (X - v) / pow2 kappa + j)).
      split; [apply div_pow2_values; auto; exists j; auto|]. apply accepts_ret. rewrite add_enc. f_equal. lia. }
  split.
  - intros H1. apply accepts_bind in H1 as (rx & H1 & H2).
    apply relu_acc in H1; auto. fold nb in H1. rewrite !HrX in H1 by auto.
    destruct H1 as [(H1 & ->)|(H1 & ->)].
    + change 0 with (enc p 0) in H2 at 1. exists 0.
      assert (E0 : enc p 0 = 0) by (apply enc_id; pose proof (prime_ge_2 _ Hprime); lia).
      rewrite <- E0 in H2. apply Hstep in H2 as (j & J); auto. exists j. split; [auto|exact J].
    + exists X. apply Hstep in H2 as (j & J); auto. exists j. split; [auto|exact J].
  - intros (v & j & Hv & J). apply accepts_bind.
    exists (enc p v). split.
    + apply relu_acc; auto. fold nb. rewrite !HrX by auto. destruct Hv as [(Hv & ->)|(Hv & ->)]; auto.
    + apply Hstep; [destruct Hv as [(_ & ->)|(_ & ->)]; auto|]. exists j. auto.
Qed.

Theorem leaky_exact X y : (nb mod c = 0)%nat -> (kappa mod c = 0)%nat -> signed_fits s X ->
  acc (leaky_relu_element p c kappa nb alpha (enc p X)) y <-> y = enc p (leaky_result (Z.max X 0) X).
Proof using Hprime Hc Hk32 Hs64 Hw Hwk Hbig Hsz Ha.
  intros M1 M2 HX. rewrite leaky_acc by auto.
  assert (RE : forall z, rci c nb z <-> 0 <= z < pow2 nb) by (intros; apply rci_ex; auto). setoid_rewrite RE.
  destruct lk_pos as (P1 & P2 & P3 & P4 & P5 & P6 & P7).
  assert (HX' : - pow2 s <= X < pow2 s) by exact HX.
  rewrite (rounded_exact c kappa M2), Nat.sub_diag. change (pow2 0) with 1. split.
  - intros (v & j & Hv & J1 & J2 & ->). assert (j = 0) by lia. subst j. rewrite Z.add_0_r.
    destruct Hv as [(Hv & ->)|(Hv & ->)]; f_equal.
    + now rewrite Z.max_r by lia.
    + now rewrite Z.max_l by lia.
  - intros ->. exists (Z.max X 0), 0. rewrite !Z.add_0_r. destruct (Z.max_spec X 0) as [(H1 & ->)|(H1 & ->)].
    + split; [left; lia|]. split; [lia|]. split; auto. rewrite Z.sub_0_r.
      apply Z.lt_le_trans with 1; [|lia]. apply Z.div_lt_upper_bound; nia.
    + split; [right; lia|]. split; [lia|]. split; auto. rewrite Z.sub_diag, Z.mul_0_r, Zdiv_0_l. lia.
Qed.

(** When nb is not a multiple of the chunk both branches are accepted for every input. *)
Theorem leaky_slack X : (nb mod c <> 0)%nat -> signed_fits s X ->
  acc (leaky_relu_element p c kappa nb alpha (enc p X)) (enc p X) /\
  acc (leaky_relu_element p c kappa nb alpha (enc p X)) (enc p (alpha * X / pow2 kappa)).
Proof using Hprime Hc Hk32 Hs64 Hw Hwk Hbig Hsz Ha.
  intros M1 HX. rewrite !leaky_acc by auto. pose proof (dbl c nb Hc M1) as HD.
  destruct lk_pos as (P1 & P2 & P3 & P4 & P5 & P6 & P7).
  assert (HX' : - pow2 s <= X < pow2 s) by exact HX.
  pose proof (pow2_pos (rounded c kappa - kappa)) as Hj.
  split.
  - exists X, 0. unfold leaky_result. rewrite Z.sub_diag, Z.mul_0_r, Zdiv_0_l, !Z.add_0_r.
    split; [right; split; auto; unfold rci; lia|]. split; [lia|]. split; [lia|auto].
  - exists 0, 0. unfold leaky_result. rewrite Z.sub_0_r, !Z.add_0_r, Z.add_0_l.
    split; [left; split; auto; unfold rci; lia|]. split; [lia|]. split; [|auto].
    apply Z.div_lt_upper_bound; nia.
Qed.

Theorem leaky_run X : signed_fits s X ->
  rn (leaky_relu_element p c kappa nb alpha (enc p X)) = Some (enc p (leaky_result (Z.max X 0) X)).
Proof using Hprime Hc Hk32 Hs64 Hw Hwk Hbig Hsz Ha.
  intros HX. destruct lk_pos as (P1 & P2 & P3 & P4 & P5 & P6 & P7). apply rn_with.
  unfold leaky_relu_element. replace (nb =? 0)%nat with false by (symmetry; apply Nat.eqb_neq; unfold nb; lia).
  cbv zeta. replace (nb - 1)%nat with s by (unfold nb; lia).
  unfold shift_ctx, rescaling_context.
  destruct (Nat.leb_spec 64 s); [lia|]. destruct (Nat.leb_spec 32 kappa); [lia|]. cbn [bind rc_alpha rc_scaled rc_kappa rc_s rc_shift].
  rewrite run_bind, relu_run by auto.
  assert (E : relu X = Z.max X 0) by (unfold relu; destruct (Z.leb_spec 0 X); lia). rewrite E.
  rewrite run_bind, sub_enc, (const_enc p alpha), mul_enc. unfold div_pow2.
  fold (dp p c kappa s (alpha * (X - Z.max X 0)) true).
  rewrite div_pow2_run; auto; [cbn [run]; rewrite add_enc; reflexivity|].
  apply leaky_range; auto. lia.
Qed.
End Leaky.

(** ** HardSwish *)
Section HS.
Variable kappa : nat.
Let a := pow2 kappa.
Let w := (kappa + 4)%nat.
Hypothesis Hk : (kappa < 61)%nat.
Hypothesis Hw : width_ok c w.
Hypothesis Hr : 2 * pow2 (rounded c w) <= p.

Definition hs_clip (X : Z) : Z := Z.min (Z.max (X + 3 * a) 0) (6 * a).

Lemma hs_pos : 0 < a /\ pow2 (kappa + 3 + 1) = 16 * a /\ pow2 w = 16 * a /\ pow2 w <= pow2 (rounded c w) /\
  pow2 (kappa + 3) = 8 * a /\ np2_bits (2 * (6 * a)) = w /\ (kappa + 3 + 1 = w)%nat.
Proof using Hc Hk.
  pose proof (pow2_pos kappa). fold a in H.
  assert (E : forall n, pow2 (kappa + n) = a * pow2 n) by (intros; apply pow2_add).
  assert (E3 : pow2 (kappa + 3) = 8 * a) by (rewrite E; change (pow2 3) with 8; lia).
  assert (E4 : pow2 w = 16 * a) by (unfold w; rewrite E; change (pow2 4) with 16; lia).
  assert (Ew : (kappa + 3 + 1 = w)%nat) by (unfold w; lia).
  rewrite Ew. pose proof (pow2_le _ _ (rounded_ge c w)). repeat split; auto.
  unfold w. replace (kappa + 4)%nat with (kappa + 3 + 1)%nat by lia. apply np2_bits_eq.
  rewrite Ew, E3, E4. lia.
Qed.

(** The final check for a given clipped value. *)
Lemma hs_final X k y y' : 0 <= y < p ->
  acc (let* _ := range_check p c (add p (sub p (mul p (mul p (const p 6) y) (const p a)) (mul p (enc p X) (enc p k))) (const p (6 * a))) w in
       let* _ := range_check p c (sub p (const p (2 * (6 * a)))
          (add p (sub p (mul p (mul p (const p 6) y) (const p a)) (mul p (enc p X) (enc p k))) (const p (6 * a)))) w in Ret y) y' <->
  y' = y /\ exists u, rci c w (6 * a + u) /\ rci c w (6 * a - u) /\ enc p (6 * a * y) = enc p (X * k + u).
Proof using Hprime Hc Hk Hw Hr.
  intros Hy. destruct hs_pos as (P1 & P2 & P3 & P4 & P5 & P6 & P7). pose proof (prime_ge_2 _ Hprime) as Hp2.
  rewrite (mul_enc_l p 6 y). encs. split.
  - intros H. a_rc H H1. a_rc H H2. apply accepts_ret in H. split; [auto|].
    apply rc_of in H1 as (t & T1 & T2); auto; try lia; [|apply enc_range; lia].
    exists (t - 6 * a).
    replace (6 * a + (t - 6 * a)) with t by lia. split; [auto|].
    assert (E : enc p (6 * a * y) = enc p (X * k + (t - 6 * a))).
    { transitivity (sub p (add p (enc p (6 * y * a - X * k + 6 * a)) (enc p (X * k))) (enc p (6 * a))).
      - encs. f_equal. lia.
      - rewrite T2. encs. f_equal. lia. }
    split; [|auto].
    replace (enc p (2 * (6 * a) - (6 * y * a - X * k + 6 * a))) with (enc p (12 * a - t)) in H2.
    + apply rc_int in H2; auto; try lia; [|unfold rci in T1; lia]. replace (6 * a - (t - 6 * a)) with (12 * a - t) by lia. auto.
    + rewrite <- sub_enc, <- T2, sub_enc. f_equal. lia.
  - intros (-> & u & U1 & U2 & U3).
    assert (T : enc p (6 * y * a - X * k + 6 * a) = enc p (6 * a + u)).
    { transitivity (add p (sub p (enc p (6 * a * y)) (enc p (X * k))) (enc p (6 * a))).
      - encs. f_equal. lia.
      - rewrite U3. encs. f_equal. lia. }
    g_unit. { rewrite T. apply rc_int; auto; try lia. unfold rci in U1. lia. }
    g_unit. { rewrite <- sub_enc, T, sub_enc. replace (2 * (6 * a) - (6 * a + u)) with (6 * a - u) by lia.
      apply rc_int; auto; try lia. unfold rci in U2. lia. }
    reflexivity.
Qed.

Lemma hs_clip_acc X k' : (w mod c = 0)%nat -> Z.abs X + 32 * a < p ->
  acc (constrained_clip p c (kappa + 3) (const p (pow2 (kappa + 3))) (add p (enc p X) (const p (3 * a)))
         (Some (const p 0)) (Some (const p (6 * a)))) k' <->
  - 16 * a < X + 3 * a < 16 * a /\ k' = enc p (hs_clip X).
Proof using Hprime Hc Hk Hw Hr.
  intros M HX. destruct hs_pos as (P1 & P2 & P3 & P4 & P5 & P6 & P7). pose proof (prime_ge_2 _ Hprime) as Hp2.
  rewrite (rounded_exact c w M) in *.
  assert (RC : forall z, - p + 16 * a <= z < p -> acc (range_check p c (enc p z) w) tt <-> 0 <= z < 16 * a).
  { intros z Hz. rewrite rc_int by (auto; rewrite ?(rounded_exact c w M), ?P3; lia).
    rewrite rci_ex, P3 by auto. reflexivity. }
  unfold constrained_clip, hs_clip. encs. split.
  - intros H. apply accepts_bind in H as (cur & H1 & H2). apply max2_acc in H1; auto. rewrite P7, !RC in H1 by lia.
    destruct H1 as [(H1 & ->)|(H1 & ->)]; apply min2_acc in H2; auto; rewrite P7, !RC in H2 by lia;
      destruct H2 as [(H2 & ->)|(H2 & ->)]; (split; [lia|f_equal; lia]).
  - intros (H1 & ->). apply accepts_bind. exists (enc p (Z.max (X + 3 * a) 0)).
    rewrite max2_acc, min2_acc, P7, !RC by (auto; lia).
    split.
    + destruct (Z.max_spec (X + 3 * a) 0) as [(? & ->)|(? & ->)]; [left|right]; (split; [lia|auto]).
    + destruct (Z.min_spec (Z.max (X + 3 * a) 0) (6 * a)) as [(? & ->)|(? & ->)]; [right|left]; (split; [lia|auto]).
Qed.

Lemma hs_unfold x y' : acc (hardswish_element p c kappa x) y' <->
  exists y k, 0 <= y < p /\
    acc (constrained_clip p c (kappa + 3) (const p (pow2 (kappa + 3))) (add p x (const p (3 * a)))
         (Some (const p 0)) (Some (const p (6 * a)))) k /\
    acc (let* _ := range_check p c (add p (sub p (mul p (mul p (const p 6) y) (const p a)) (mul p x k)) (const p (6 * a))) w in
       let* _ := range_check p c (sub p (const p (2 * (6 * a)))
          (add p (sub p (mul p (mul p (const p 6) y) (const p a)) (mul p x k)) (const p (6 * a)))) w in Ret y) y'.
Proof using Hprime Hc Hk Hw Hr.
  destruct hs_pos as (P1 & P2 & P3 & P4 & P5 & P6 & P7).
  unfold hardswish_element. cbv zeta. fold a. rewrite P6. unfold shift_ctx.
  destruct (Nat.leb_spec 64 (kappa + 3)); [lia|]. cbn [bind]. split.
  - intros H1. a_hint H1 y Hy. apply accepts_bind in H1 as (k & H1 & H2). exists y, k. auto.
  - intros (y & k & H1 & H2 & H3). g_hint y; [auto|]. apply accepts_bind. exists k. auto.
Qed.

Theorem hs_exact X y : (w mod c = 0)%nat -> Z.abs X + 32 * a < p ->
  acc (hardswish_element p c kappa (enc p X)) y <->
  - 16 * a < X + 3 * a < 16 * a /\ 0 <= y < p /\
  exists u, - (6 * a) <= u <= 6 * a /\ enc p (6 * a * y) = enc p (X * hs_clip X + u).
Proof using Hprime Hc Hk Hw Hr.
  intros M HX. destruct hs_pos as (P1 & P2 & P3 & P4 & P5 & P6 & P7). rewrite hs_unfold. split.
  - intros (y0 & k & H1 & H2 & H3). apply hs_clip_acc in H2 as (H2 & ->); auto.
    apply hs_final in H3 as (-> & u & U1 & U2 & U3); auto. rewrite rci_ex, P3 in U1, U2 by auto.
    repeat split; try lia. exists u. split; [lia|auto].
  - intros (H1 & H2 & u & U1 & U2). exists y, (enc p (hs_clip X)). split; [auto|].
    split; [apply hs_clip_acc; auto|]. apply hs_final; auto. split; [auto|]. exists u.
    rewrite !rci_ex, P3 by auto. repeat split; try lia; auto.
Qed.

(** The output is not range checked. *)
Theorem hs_garbage : exists y, acc (hardswish_element p c kappa 0) y /\ (6 * a * y) mod p = 1.
Proof using Hprime Hc Hk Hw Hr.
  destruct hs_pos as (P1 & P2 & P3 & P4 & P5 & P6 & P7). pose proof (prime_ge_2 _ Hprime) as Hp2.
  assert (Hrel : rel_prime (6 * a) p). { apply rel_prime_sym, prime_rel_prime; auto. intros D. apply Z.divide_pos_le in D; lia. }
  apply rel_prime_bezout in Hrel as [u v Huv].
  exists (enc p u).
  assert (Ey : (6 * a * enc p u) mod p = 1).
  { unfold enc. rewrite Zmult_mod_idemp_r. replace (6 * a * u) with (1 + (- v) * p) by lia.
    rewrite Z_mod_plus_full. apply Z.mod_small. lia. }
  split; [|exact Ey]. apply hs_unfold. exists (enc p u), (enc p (3 * a)).
  split; [apply enc_range; lia|]. assert (E0 : 0 = enc p 0) by (symmetry; apply enc_id; lia).
  assert (RC : forall z, 0 <= z < 16 * a -> acc (range_check p c (enc p z) w) tt).
  { intros z Hz. apply rc_int; auto; try lia. unfold rci. lia. }
  split.
  - rewrite E0 at 1. unfold constrained_clip. encs. apply accepts_bind. exists (enc p (3 * a)).
    split; [apply max2_acc; auto; right; rewrite P7; split; [apply RC; lia|auto]
           |apply min2_acc; auto; right; rewrite P7; split; [apply RC; lia|auto]].
  - replace (mul p 0 (enc p (3 * a))) with (mul p (enc p 0) (enc p (3 * a))) by (now rewrite <- E0). apply hs_final; [apply enc_range; lia|]. split; [auto|]. exists 1.
    unfold rci. rewrite P3. repeat split; try lia.
    unfold enc at 1. rewrite Ey. unfold enc. symmetry. apply Z.mod_small. lia.
Qed.

Theorem hs_run X N : - 11 * a <= X < 5 * a -> - 6 * a <= 6 * N * a - X * hs_clip X <= 6 * a ->
  G 11 [enc p X; const p a] 1 = Some [enc p N] ->
  rn (hardswish_element p c kappa (enc p X)) = Some (enc p N).
Proof using Hprime Hc Hk Hw Hr.
  intros HX HN HG. destruct hs_pos as (P1 & P2 & P3 & P4 & P5 & P6 & P7).
  unfold hardswish_element. cbv zeta. fold a. rewrite P6. unfold shift_ctx.
  destruct (Nat.leb_spec 64 (kappa + 3)); [lia|]. cbn [bind].
  rewrite run_bind, (rn_custom c F G 11 _ _ HG). encs.
  rewrite run_bind.
  assert (SF : forall z, - 8 * a <= z < 8 * a -> signed_fits (kappa + 3) z).
  { intros z Hz. unfold signed_fits. change (2 ^ Z.of_nat (kappa + 3)) with (pow2 (kappa + 3)). rewrite P5. lia. }
  assert (E : rn (constrained_clip p c (kappa + 3) (enc p (pow2 (kappa + 3))) (enc p (X + 3 * a)) (Some (const p 0)) (Some (const p (6 * a)))) = Some (enc p (hs_clip X))).
  { apply rn_with. apply (clip_run p Hprime c Hc F (kappa + 3)) with (lo := Some 0) (hi := Some (6 * a)); try (rewrite P7; auto; lia).
    - apply SF. lia.
    - intros z Hz. apply (f_equal (fun o => match o with Some v => v | None => 0 end)) in Hz; cbv beta iota in Hz; subst z. apply SF. lia.
    - intros z Hz. apply (f_equal (fun o => match o with Some v => v | None => 0 end)) in Hz; cbv beta iota in Hz; subst z. apply SF. lia. }
  rewrite E. encs. rewrite run_bind, rn_rc by (auto; try lia; unfold rci; lia).
  rewrite run_bind, rn_rc by (auto; try lia; unfold rci; lia). reflexivity.
Qed.

(** Inputs of 13 and more: the honest prover fails. *)
Theorem hs_run_large X : 13 * a <= X -> X + 32 * a + pow2 (rounded c w) < p ->
  rn (hardswish_element p c kappa (enc p X)) = None.
Proof using Hprime Hc Hk Hw Hr.
  intros HX HX'. destruct hs_pos as (P1 & P2 & P3 & P4 & P5 & P6 & P7). pose proof (prime_ge_2 _ Hprime) as Hp2.
  unfold hardswish_element. cbv zeta. fold a. rewrite P6. unfold shift_ctx.
  destruct (Nat.leb_spec 64 (kappa + 3)); [lia|]. cbn [bind].
  rewrite run_bind. destruct (rn (hint1 (HCustom 11) _)) as [y|]; [|reflexivity].
  rewrite run_bind. unfold constrained_clip. rewrite run_bind. unfold constrained_max_2.
  rewrite run_bind. rewrite rn_ge. encs. rewrite P5, (enc_id p (0 + 8 * a)), (enc_id p (X + 3 * a + 8 * a)) by lia.
  destruct (Z.leb_spec (0 + 8 * a) (X + 3 * a + 8 * a)); [|lia].
  rewrite run_bind. unfold assert_bool at 1. cbn [run].
  destruct (mul p 1 (sub p 1 1) =? 0); [|reflexivity].
  rewrite run_bind. rewrite sel1, mul_enc, P7 by auto.
  destruct (rn (range_check p c (enc p (1 * (X + 3 * a - 0))) w)) as [u|] eqn:E; [|reflexivity].
  exfalso. apply rc_run_acc in E; auto.
  - apply rc_int in E; auto; try lia. unfold rci in E. lia.
  - apply (pow2_c_le c p w); auto; try lia.
Qed.
End HS.

(** ** Sin and Cos *)
End S.

Section Trig.
Variable p : Z.
Hypothesis Hprime : prime p.
Variable c : nat.
Hypothesis Hc : (0 < c)%nat.
Variable f : Z -> Z.
Variables kappa nb tw : nat.
Let s := (Nat.max tw nb + 4)%nat.
Let half := pow2 (tw - 1).
Variable G : nat -> list Z -> nat -> option (list Z).
Notation acc := (accepts p (table_rows c (trig_tables p tw f))).
Notation rn := (run (honest_with G) (table_rowsb c (trig_tables p tw f))).
Hypothesis Htw : (1 <= tw)%nat.
Hypothesis Hs : (s < 64)%nat.
Hypothesis Hw : width_ok c (s + 1).
Hypothesis Hwn : width_ok c (nb + 1).
Hypothesis Hsz : 2 * pow2 (rounded c (s + 1)) <= p.
Hypothesis Hszn : 2 * pow2 (rounded c (nb + 1)) <= p.
Hypothesis Hf : forall x, - half <= x < half -> - pow2 kappa <= f x <= pow2 kappa.
Hypothesis Hkn : (kappa < nb)%nat.

Definition trig_clip (X : Z) : Z := Z.min (Z.max X (- half)) (half - 1).

Lemma tg_pos : 0 < half /\ 16 * half <= pow2 s /\ pow2 (s + 1) = 2 * pow2 s /\ pow2 tw = 2 * half /\
  pow2 (s + 1) <= pow2 (rounded c (s + 1)) /\ pow2 (nb + 1) <= pow2 (rounded c (nb + 1)) /\ 0 < pow2 kappa /\
  2 * pow2 kappa < pow2 (nb + 1) /\ 16 * pow2 nb <= pow2 s.
Proof using Hc Htw Hkn.
  clear - Hc Htw Hkn.
  assert (E : pow2 tw = 2 * half). { unfold half. rewrite <- pow2_1. f_equal. lia. }
  pose proof (pow2_pos (tw - 1)). fold half in H. pose proof (pow2_pos kappa).
  pose proof (pow2_1 s). pose proof (pow2_1 nb). pose proof (pow2_lt kappa nb Hkn).
  pose proof (pow2_le _ _ (rounded_ge c (s + 1))). pose proof (pow2_le _ _ (rounded_ge c (nb + 1))).
  assert (16 * half <= pow2 s).
  { replace (16 * half) with (pow2 4 * pow2 (tw - 1)) by reflexivity. rewrite <- pow2_add. apply pow2_le. unfold s. lia. }
  assert (16 * pow2 nb <= pow2 s).
  { replace (16 * pow2 nb) with (pow2 4 * pow2 nb) by reflexivity. rewrite <- pow2_add. apply pow2_le. unfold s. lia. }
  repeat split; auto; lia.
Qed.

Lemma trig_clip_range X : - half <= trig_clip X < half.
Proof using Htw Hkn Hc. pose proof (pow2_pos (tw - 1)) as P1. fold half in P1. clear - P1. unfold trig_clip. lia. Qed.

Theorem trig_exact X y : ((s + 1) mod c = 0)%nat -> signed_fits s X ->
  acc (trig_element p c kappa nb tw (enc p X)) y <-> y = enc p (f (trig_clip X)).
Proof using Hprime Hc Htw Hs Hw Hwn Hsz Hszn Hf Hkn.
  intros M HX. destruct tg_pos as (P1 & P2 & P3 & P4 & P5 & P6 & P7 & P8 & P9). pose proof (prime_ge_2 _ Hprime) as Hp2.
  unfold trig_element. cbv zeta. fold s half. unfold shift_ctx.
  destruct (Nat.leb_spec 64 s); [lia|]. cbn [bind].
  assert (SF : forall z, - half <= z < half -> signed_fits s z).
  { intros z Hz. unfold signed_fits. change (2 ^ Z.of_nat s) with (pow2 s). lia. }
  assert (CE : forall k, acc (constrained_clip p c s (const p (pow2 s)) (enc p X) (Some (const p (- half))) (Some (const p (half - 1)))) k
     <-> k = enc p (trig_clip X)).
  { intros k. rewrite !const_enc.
    apply (clip_exact p Hprime c Hc _ s) with (lo := Some (- half)) (hi := Some (half - 1)); auto; try lia.
    - intros z Hz. apply (f_equal (fun o => match o with Some v => v | None => 0 end)) in Hz; cbv beta iota in Hz; subst z. apply SF. lia.
    - intros z Hz. apply (f_equal (fun o => match o with Some v => v | None => 0 end)) in Hz; cbv beta iota in Hz; subst z. apply SF. lia. }
  pose proof (trig_clip_range X) as HR. specialize (Hf _ HR) as Hfr.
  split.
  - intros H1. apply accepts_bind in H1 as (k & H1 & H2). apply CE in H1. subst k.
    a_hint H2 y0 Hy0. apply accepts_bind in H2 as ([] & H3 & H2). rewrite accepts_lookup in H3.
    a_rc H2 H4. a_rc H2 H5. apply accepts_ret in H2. subst y0.
    cbn [table_rows] in H3. unfold trig_tables in H3. apply in_signed_table in H3 as (x & Hx & [= E1 E2]).
    fold half in Hx. apply enc_inj in E1; [|lia|]. 2: { rewrite P4 in Hx. lia. }
    subst y. rewrite <- E1. reflexivity.
  - intros ->. apply accepts_bind. exists (enc p (trig_clip X)). split; [apply CE; auto|].
    g_hint (enc p (f (trig_clip X))); [apply enc_range; lia|].
    g_unit. { apply accepts_lookup. cbn [table_rows]. unfold trig_tables. apply in_signed_table.
      exists (trig_clip X). fold half. rewrite P4. split; [lia|auto]. }
    encs. g_unit; [apply rc_int; auto; try lia; unfold rci; lia|].
    g_unit; [apply rc_int; auto; try lia; unfold rci; lia|]. reflexivity.
Qed.

Theorem trig_run X : signed_fits s X ->
  (forall k, - half <= k < half -> G 12 [enc p k; const p (pow2 kappa)] 1 = Some [enc p (f k)]) ->
  rn (trig_element p c kappa nb tw (enc p X)) = Some (enc p (f (trig_clip X))).
Proof using Hprime Hc Htw Hs Hw Hwn Hsz Hszn Hf Hkn.
  intros HX HG. destruct tg_pos as (P1 & P2 & P3 & P4 & P5 & P6 & P7 & P8 & P9).
  unfold trig_element. cbv zeta. fold s half. unfold shift_ctx.
  destruct (Nat.leb_spec 64 s); [lia|]. cbn [bind].
  assert (SF : forall z, - half <= z < half -> signed_fits s z).
  { intros z Hz. unfold signed_fits. change (2 ^ Z.of_nat s) with (pow2 s). lia. }
  pose proof (trig_clip_range X) as HR. specialize (Hf _ HR) as Hfr.
  rewrite run_bind.
  assert (E : rn (constrained_clip p c s (const p (pow2 s)) (enc p X) (Some (const p (- half))) (Some (const p (half - 1)))) = Some (enc p (trig_clip X))).
  { apply rn_with. rewrite (const_enc p (- half)), (const_enc p (half - 1)).
    apply (clip_run p Hprime c Hc _ s) with (lo := Some (- half)) (hi := Some (half - 1)); auto; try lia.
    - intros z Hz. apply (f_equal (fun o => match o with Some v => v | None => 0 end)) in Hz; cbv beta iota in Hz; subst z. apply SF. lia.
    - intros z Hz. apply (f_equal (fun o => match o with Some v => v | None => 0 end)) in Hz; cbv beta iota in Hz; subst z. apply SF. lia. }
  rewrite E, run_bind, (rn_custom c _ G 12 _ _ (HG _ HR)).
  rewrite run_bind. unfold lookup. cbn [run].
  assert (T : table_rowsb c (trig_tables p tw f) (TFun 0) [enc p (trig_clip X); enc p (f (trig_clip X))] = true).
  { cbn [table_rowsb]. apply existsb_exists. exists [enc p (trig_clip X); enc p (f (trig_clip X))]. split.
    - unfold trig_tables. apply in_signed_table. exists (trig_clip X). fold half. rewrite P4. split; [lia|auto].
    - destruct list_eq_dec; auto. }
  rewrite T. encs.
  rewrite run_bind, rn_rc by (auto; try lia; unfold rci; lia).
  rewrite run_bind, rn_rc by (auto; try lia; unfold rci; lia). reflexivity.
Qed.
End Trig.
