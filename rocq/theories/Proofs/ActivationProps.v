(** The activation properties, instances of the general lemmas. *)
From Coq Require Import ZArith List Bool Znumtheory Lia.
From Verif Require Import Spec.Numbers Spec.ActivationSpec Spec.HonestProver Model.Builder Model.Gadgets Model.Layers
  Model.Activations Base.Pocklington
  Proofs.Builder Proofs.RangeCheck Proofs.Gadgets Proofs.Division Proofs.Layers Proofs.HonestRun
  Proofs.Activations1 Proofs.Activations2 Proofs.Activations3 Proofs.Softmax Proofs.LayerNorm Proofs.LayerProps.
Import ListNotations.
Local Open Scope Z_scope.

Ltac nle := vm_compute; discriminate.
Ltac nlt := vm_compute; repeat split; discriminate.
Ltac w12 := split; [split; [apply Nat.ltb_lt; reflexivity|apply Nat.leb_le; reflexivity]|intros HW; vm_compute in HW; discriminate HW].

Lemma leaky_max kappa alpha x : leaky_result kappa alpha (Z.max x 0) x = leaky (2 ^ Z.of_nat kappa) alpha x.
Proof.
  unfold leaky_result, leaky. destruct (Z.leb_spec 0 x).
  - rewrite Z.max_l, Z.sub_diag, Z.mul_0_r, Z.div_0_l by (try lia; pose proof (pow2_pos kappa); lia). lia.
  - rewrite Z.max_r, Z.sub_0_r by lia. reflexivity.
Qed.

(** ** C80  Sqrt: accepted outputs *)

Lemma p80_sqrt_sound_refuted F :
  accepts bn254_r (table_rows 12 F) (sqrt_element bn254_r 12 18 64 0) (2 ^ 32) /\
  accepts bn254_r (table_rows 12 F) (sqrt_element bn254_r 12 18 64 (enc bn254_r (- 2 ^ 18))) 0.
Proof.
  assert (G : forall X y, - pow2 (rounded 12 64) < X < pow2 (rounded 12 64) ->
    accepts bn254_r (table_rows 12 F) (sqrt_element bn254_r 12 18 64 (enc bn254_r X)) y <-> _)
    by (apply (sqrt_acc bn254_r bn254_prime 12 ltac:(lia) F 18 64); [w12|w12|nle]).
  split.
  - change 0 with (enc bn254_r 0) at 1. apply G; [nlt|]. exists (2 ^ 32). split; [reflexivity|].
    unfold rci. repeat split; first [nle|nlt].
  - apply G; [nlt|]. exists 0. split; [reflexivity|]. unfold rci. repeat split; first [nle|nlt].
Qed.

Lemma p80_sqrt_sound_partial p c F kappa nb x y :
  prime p -> (0 < c)%nat -> width_ok c nb -> width_ok c (nb + 1) -> ((nb + 1) mod c = 0)%nat ->
  2 * (2 ^ Z.of_nat (rounded c nb) * 2 ^ Z.of_nat kappa + 2 ^ Z.of_nat (rounded c nb) * 2 ^ Z.of_nat (rounded c nb)
       + 2 * 2 ^ Z.of_nat (rounded c nb) + 2 ^ Z.of_nat (rounded c (nb + 1))) <= p ->
  - 2 ^ Z.of_nat (rounded c nb) < x < 2 ^ Z.of_nat (rounded c nb) ->
  accepts p (table_rows c F) (sqrt_element p c kappa nb (enc p x)) y <->
  0 <= x < 2 ^ Z.of_nat nb /\ Z.sqrt (x * 2 ^ Z.of_nat kappa) < 2 ^ Z.of_nat nb /\
  y = enc p (Z.sqrt (x * 2 ^ Z.of_nat kappa)).
Proof.
  intros Hp Hc H1 H2 Hm Hb Hx. exact (sqrt_exact p Hp c Hc F kappa nb H1 H2 Hb x y Hm Hx).
Qed.

Lemma p80_applies : prime bn254_r /\ width_ok 12 35 /\ width_ok 12 36 /\ (36 mod 12 = 0)%nat /\
  2 * (2 ^ Z.of_nat (rounded 12 35) * 2 ^ Z.of_nat 18 + 2 ^ Z.of_nat (rounded 12 35) * 2 ^ Z.of_nat (rounded 12 35)
       + 2 * 2 ^ Z.of_nat (rounded 12 35) + 2 ^ Z.of_nat (rounded 12 36)) <= bn254_r /\
  Z.sqrt (2 ^ 19 * 2 ^ 18) = 370727.
Proof. split; [exact bn254_prime|]. split; [w12|]. split; [w12|]. split; [reflexivity|]. split; [nle|reflexivity]. Qed.

(** ** C81  Sqrt: the honest prover *)

Lemma p81_sqrt_complete_refuted F G :
  nearest_root (2 ^ 19 * 2 ^ 18) 370728 /\
  (G 10%nat [2 ^ 19; 2 ^ 18] 1%nat = Some [370728] ->
   run (honest_with G) (table_rowsb 12 F) (sqrt_element bn254_r 12 18 35 (2 ^ 19)) = None).
Proof.
  split; [unfold nearest_root; lia|]. intros HG.
  change (2 ^ 19) with (enc bn254_r (2 ^ 19)).
  rewrite (sqrt_honest_exact bn254_r bn254_prime 12 ltac:(lia) F G 18 35 ltac:(w12) ltac:(w12) ltac:(nle) (2 ^ 19) 370728); try reflexivity; try exact HG; nlt.
Qed.

Lemma p81_sqrt_complete_partial p c F G kappa nb x n :
  prime p -> (0 < c)%nat -> width_ok c nb -> width_ok c (nb + 1) -> ((nb + 1) mod c <> 0)%nat ->
  2 * (2 ^ Z.of_nat (rounded c nb) * 2 ^ Z.of_nat kappa + 2 ^ Z.of_nat (rounded c nb) * 2 ^ Z.of_nat (rounded c nb)
       + 2 * 2 ^ Z.of_nat (rounded c nb) + 2 ^ Z.of_nat (rounded c (nb + 1))) <= p ->
  0 <= x < 2 ^ Z.of_nat nb -> nearest_root (x * 2 ^ Z.of_nat kappa) n -> 2 * n <= 2 ^ Z.of_nat nb ->
  G 10%nat [enc p x; enc p (2 ^ Z.of_nat kappa)] 1%nat = Some [enc p n] ->
  run (honest_with G) (table_rowsb c F) (sqrt_element p c kappa nb (enc p x)) = Some (enc p n).
Proof.
  intros Hp Hc H1 H2 Hm Hb Hx Hn Hn2 HG. exact (sqrt_honest_slack p Hp c Hc F G kappa nb H1 H2 Hb x n Hm Hx HG Hn Hn2).
Qed.

Lemma p81_sqrt_complete_exact_width_partial p c F G kappa nb x n :
  prime p -> (0 < c)%nat -> width_ok c nb -> width_ok c (nb + 1) -> ((nb + 1) mod c = 0)%nat ->
  2 * (2 ^ Z.of_nat (rounded c nb) * 2 ^ Z.of_nat kappa + 2 ^ Z.of_nat (rounded c nb) * 2 ^ Z.of_nat (rounded c nb)
       + 2 * 2 ^ Z.of_nat (rounded c nb) + 2 ^ Z.of_nat (rounded c (nb + 1))) <= p ->
  0 <= x < 2 ^ Z.of_nat nb -> 0 <= n < 2 ^ Z.of_nat nb ->
  G 10%nat [enc p x; enc p (2 ^ Z.of_nat kappa)] 1%nat = Some [enc p n] ->
  run (honest_with G) (table_rowsb c F) (sqrt_element p c kappa nb (enc p x)) =
  if n =? Z.sqrt (x * 2 ^ Z.of_nat kappa) then Some (enc p n) else None.
Proof.
  intros Hp Hc H1 H2 Hm Hb Hx Hn HG. exact (sqrt_honest_exact p Hp c Hc F G kappa nb H1 H2 Hb x n Hm Hx HG Hn).
Qed.

Lemma p81_applies : prime bn254_r /\ width_ok 12 64 /\ width_ok 12 65 /\ (65 mod 12 <> 0)%nat /\
  2 * (2 ^ Z.of_nat (rounded 12 64) * 2 ^ Z.of_nat 18 + 2 ^ Z.of_nat (rounded 12 64) * 2 ^ Z.of_nat (rounded 12 64)
       + 2 * 2 ^ Z.of_nat (rounded 12 64) + 2 ^ Z.of_nat (rounded 12 65)) <= bn254_r /\
  nearest_root (2 ^ 19 * 2 ^ 18) 370728.
Proof. split; [exact bn254_prime|]. split; [w12|]. split; [w12|]. split; [discriminate|]. split; [nle|unfold nearest_root; lia]. Qed.

(** ** C82  LeakyRelu: accepted outputs *)

Lemma p82_leaky_sound_refuted F alpha x :
  0 <= alpha <= 2 ^ 18 -> - 2 ^ 63 <= x < 2 ^ 63 ->
  accepts bn254_r (table_rows 12 F) (leaky_relu_element bn254_r 12 18 64 alpha (enc bn254_r x)) (enc bn254_r x) /\
  accepts bn254_r (table_rows 12 F) (leaky_relu_element bn254_r 12 18 64 alpha (enc bn254_r x)) (enc bn254_r (alpha * x / 2 ^ 18)).
Proof.
  intros Ha Hx. exact (leaky_slack bn254_r bn254_prime 12 ltac:(lia) F 18 63 alpha ltac:(lia) ltac:(lia) ltac:(w12) ltac:(w12) ltac:(nle) ltac:(nle) Ha x ltac:(discriminate) Hx).
Qed.

Lemma p82_leaky_sound_partial p c F kappa s alpha x y :
  prime p -> (0 < c)%nat -> (kappa < 32)%nat -> (s < 64)%nat -> width_ok c (s + 1) -> width_ok c kappa ->
  2 ^ Z.of_nat kappa * 2 ^ Z.of_nat (rounded c (s + 1)) + 2 ^ Z.of_nat (rounded c kappa) <= p ->
  2 * 2 ^ Z.of_nat (s + 1) <= p -> 0 <= alpha <= 2 ^ Z.of_nat kappa ->
  ((s + 1) mod c = 0)%nat -> (kappa mod c = 0)%nat -> signed_fits s x ->
  accepts p (table_rows c F) (leaky_relu_element p c kappa (s + 1) alpha (enc p x)) y <->
  y = enc p (leaky (2 ^ Z.of_nat kappa) alpha x).
Proof.
  intros Hp Hc H1 H2 H3 H4 H5 H6 H7 H8 H9 Hx. rewrite <- leaky_max. exact (leaky_exact p Hp c Hc F kappa s alpha H1 H2 H3 H4 H5 H6 H7 x y H8 H9 Hx).
Qed.

Lemma p82_applies : prime bn254_r /\ width_ok 12 (59 + 1) /\ width_ok 12 24 /\ ((59 + 1) mod 12 = 0)%nat /\ (24 mod 12 = 0)%nat /\
  2 ^ Z.of_nat 24 * 2 ^ Z.of_nat (rounded 12 (59 + 1)) + 2 ^ Z.of_nat (rounded 12 24) <= bn254_r /\
  2 * 2 ^ Z.of_nat (59 + 1) <= bn254_r /\ leaky (2 ^ 24) 167772 (- 5 * 2 ^ 24) = - 838860.
Proof. split; [exact bn254_prime|]. split; [w12|]. split; [w12|]. split; [reflexivity|]. split; [reflexivity|]. split; [nle|]. split; [nle|reflexivity]. Qed.

(** ** C83  LeakyRelu: the honest prover *)

Lemma p83_leaky_complete p c F G kappa s alpha x :
  prime p -> (0 < c)%nat -> (kappa < 32)%nat -> (s < 64)%nat -> width_ok c (s + 1) -> width_ok c kappa ->
  2 ^ Z.of_nat kappa * 2 ^ Z.of_nat (rounded c (s + 1)) + 2 ^ Z.of_nat (rounded c kappa) <= p ->
  2 * 2 ^ Z.of_nat (s + 1) <= p -> 0 <= alpha <= 2 ^ Z.of_nat kappa ->
  signed_fits s x ->
  run (honest_with G) (table_rowsb c F) (leaky_relu_element p c kappa (s + 1) alpha (enc p x)) =
  Some (enc p (leaky (2 ^ Z.of_nat kappa) alpha x)).
Proof.
  intros Hp Hc H1 H2 H3 H4 H5 H6 H7 Hx. rewrite <- leaky_max. exact (leaky_run p Hp c Hc F G kappa s alpha H1 H2 H3 H4 H5 H6 H7 x Hx).
Qed.

Lemma p83_applies : prime bn254_r /\ width_ok 12 (63 + 1) /\ width_ok 12 18 /\
  2 ^ Z.of_nat 18 * 2 ^ Z.of_nat (rounded 12 (63 + 1)) + 2 ^ Z.of_nat (rounded 12 18) <= bn254_r /\
  2 * 2 ^ Z.of_nat (63 + 1) <= bn254_r /\ signed_fits 63 (- 5 * 2 ^ 18).
Proof. split; [exact bn254_prime|]. split; [w12|]. split; [w12|]. split; [nle|]. split; [nle|]. unfold signed_fits. split; [nle|nlt]. Qed.

(** ** C84  HardSwish: accepted outputs *)

Lemma p84_hardswish_sound_refuted p c F kappa :
  prime p -> (0 < c)%nat -> (kappa < 61)%nat -> width_ok c (kappa + 4) -> 2 * 2 ^ Z.of_nat (rounded c (kappa + 4)) <= p ->
  exists y, accepts p (table_rows c F) (hardswish_element p c kappa 0) y /\ (6 * 2 ^ Z.of_nat kappa * y) mod p = 1.
Proof.
  intros Hp Hc H1 H2 H3. exact (hs_garbage p Hp c Hc F kappa H1 H2 H3).
Qed.

Lemma p84_hardswish_sound_partial p c F kappa x y :
  prime p -> (0 < c)%nat -> (kappa < 61)%nat -> width_ok c (kappa + 4) -> 2 * 2 ^ Z.of_nat (rounded c (kappa + 4)) <= p ->
  ((kappa + 4) mod c = 0)%nat -> Z.abs x + 32 * 2 ^ Z.of_nat kappa < p ->
  accepts p (table_rows c F) (hardswish_element p c kappa (enc p x)) y <->
  - 16 * 2 ^ Z.of_nat kappa < x + 3 * 2 ^ Z.of_nat kappa < 16 * 2 ^ Z.of_nat kappa /\ 0 <= y < p /\
  exists u, - (6 * 2 ^ Z.of_nat kappa) <= u <= 6 * 2 ^ Z.of_nat kappa /\
    enc p (6 * 2 ^ Z.of_nat kappa * y) = enc p (hard_swish6 (2 ^ Z.of_nat kappa) x + u).
Proof.
  intros Hp Hc H1 H2 H3 H4 H5. exact (hs_exact p Hp c Hc F kappa H1 H2 H3 x y H4 H5).
Qed.

Lemma p84_applies : prime bn254_r /\ width_ok 12 (20 + 4) /\ ((20 + 4) mod 12 = 0)%nat /\
  2 * 2 ^ Z.of_nat (rounded 12 (20 + 4)) <= bn254_r /\ hard_swish6 (2 ^ 20) (2 ^ 20) = 4 * 2 ^ 40.
Proof. split; [exact bn254_prime|]. split; [w12|]. split; [reflexivity|]. split; [nle|reflexivity]. Qed.

(** ** C85  HardSwish: the honest prover *)

Lemma p85_hardswish_complete_refuted p c F G kappa x :
  prime p -> (0 < c)%nat -> (kappa < 61)%nat -> width_ok c (kappa + 4) -> 2 * 2 ^ Z.of_nat (rounded c (kappa + 4)) <= p ->
  13 * 2 ^ Z.of_nat kappa <= x -> x + 32 * 2 ^ Z.of_nat kappa + 2 ^ Z.of_nat (rounded c (kappa + 4)) < p ->
  run (honest_with G) (table_rowsb c F) (hardswish_element p c kappa (enc p x)) = None.
Proof.
  intros Hp Hc H1 H2 H3 H4 H5. exact (hs_run_large p Hp c Hc F G kappa H1 H2 H3 x H4 H5).
Qed.

Lemma p85_hardswish_complete_partial p c F G kappa x n :
  prime p -> (0 < c)%nat -> (kappa < 61)%nat -> width_ok c (kappa + 4) -> 2 * 2 ^ Z.of_nat (rounded c (kappa + 4)) <= p ->
  - 11 * 2 ^ Z.of_nat kappa <= x < 5 * 2 ^ Z.of_nat kappa ->
  nearest_quotient (hard_swish6 (2 ^ Z.of_nat kappa) x) (6 * 2 ^ Z.of_nat kappa) n ->
  G 11%nat [enc p x; enc p (2 ^ Z.of_nat kappa)] 1%nat = Some [enc p n] ->
  run (honest_with G) (table_rowsb c F) (hardswish_element p c kappa (enc p x)) = Some (enc p n).
Proof.
  intros Hp Hc H1 H2 H3 H4 H5 HG. apply (hs_run p Hp c Hc F G kappa H1 H2 H3 x n H4); [|exact HG].
  unfold nearest_quotient in H5. change (x * hs_clip kappa x) with (hard_swish6 (2 ^ Z.of_nat kappa) x).
  change (pow2 kappa) with (2 ^ Z.of_nat kappa). assert (0 < 2 ^ Z.of_nat kappa) by (apply Z.pow_pos_nonneg; lia). lia.
Qed.

Lemma p85_applies : prime bn254_r /\ width_ok 12 (18 + 4) /\ 2 * 2 ^ Z.of_nat (rounded 12 (18 + 4)) <= bn254_r /\
  nearest_quotient (hard_swish6 (2 ^ 18) (2 ^ 18)) (6 * 2 ^ 18) 174763.
Proof. split; [exact bn254_prime|]. split; [w12|]. split; [nle|]. unfold nearest_quotient. vm_compute. discriminate. Qed.

(** ** C86  Sin and Cos *)

Lemma p86_trig_value_refuted f G :
  (forall k, key 20 k -> - 2 ^ 18 <= f k <= 2 ^ 18) ->
  (forall k, key 20 k -> G 12%nat [enc bn254_r k; 2 ^ 18] 1%nat = Some [enc bn254_r (f k)]) ->
  trig_table_bits 18 32 = 20%nat /\
  run (honest_with G) (table_rowsb 12 (trig_tables bn254_r 20 f)) (trig_element bn254_r 12 18 32 20 (3 * 2 ^ 18)) =
  Some (enc bn254_r (f 524287)).
Proof.
  intros Hf HG. split; [reflexivity|]. change (3 * 2 ^ 18) with (enc bn254_r (3 * 2 ^ 18)).
  apply (trig_run bn254_r bn254_prime 12 ltac:(lia) f 18 32 20 G ltac:(lia)); try exact Hf; try exact HG; try w12; try nle.
  - apply Nat.ltb_lt. reflexivity.
  - lia.
  - unfold signed_fits. split; [nle|nlt].
Qed.

Lemma p86_trig_default_width_refuted p c H Tb x : run H Tb (trig_element p c 18 64 (trig_table_bits 18 64) x) = None.
Proof.
  reflexivity.
Qed.

Lemma p86_trig_sound_partial p c f kappa nb tw x y :
  prime p -> (0 < c)%nat -> (1 <= tw)%nat -> (Nat.max tw nb + 4 < 64)%nat -> (kappa < nb)%nat ->
  width_ok c (Nat.max tw nb + 4 + 1) -> width_ok c (nb + 1) ->
  2 * 2 ^ Z.of_nat (rounded c (Nat.max tw nb + 4 + 1)) <= p -> 2 * 2 ^ Z.of_nat (rounded c (nb + 1)) <= p ->
  (forall k, key tw k -> - 2 ^ Z.of_nat kappa <= f k <= 2 ^ Z.of_nat kappa) ->
  signed_fits (Nat.max tw nb + 4) x ->
  ((Nat.max tw nb + 4 + 1) mod c = 0)%nat ->
  accepts p (table_rows c (trig_tables p tw f)) (trig_element p c kappa nb tw (enc p x)) y <->
  y = enc p (f (clamp tw x)).
Proof.
  intros Hp Hc H1 H2 H3 H4 H5 H6 H7 H8 Hx Hm. exact (trig_exact p Hp c Hc f kappa nb tw H1 H2 H4 H5 H6 H7 H8 H3 x y Hm Hx).
Qed.

Lemma p86_trig_complete_partial p c f G kappa nb tw x :
  prime p -> (0 < c)%nat -> (1 <= tw)%nat -> (Nat.max tw nb + 4 < 64)%nat -> (kappa < nb)%nat ->
  width_ok c (Nat.max tw nb + 4 + 1) -> width_ok c (nb + 1) ->
  2 * 2 ^ Z.of_nat (rounded c (Nat.max tw nb + 4 + 1)) <= p -> 2 * 2 ^ Z.of_nat (rounded c (nb + 1)) <= p ->
  (forall k, key tw k -> - 2 ^ Z.of_nat kappa <= f k <= 2 ^ Z.of_nat kappa) ->
  signed_fits (Nat.max tw nb + 4) x ->
  (forall k, key tw k -> G 12%nat [enc p k; enc p (2 ^ Z.of_nat kappa)] 1%nat = Some [enc p (f k)]) ->
  run (honest_with G) (table_rowsb c (trig_tables p tw f)) (trig_element p c kappa nb tw (enc p x)) =
  Some (enc p (f (clamp tw x))).
Proof.
  intros Hp Hc H1 H2 H3 H4 H5 H6 H7 H8 Hx HG. exact (trig_run p Hp c Hc f kappa nb tw G H1 H2 H4 H5 H6 H7 H8 H3 x Hx HG).
Qed.

Lemma p86_applies : prime bn254_r /\ (Nat.max 20 43 + 4 < 64)%nat /\ width_ok 12 (Nat.max 20 43 + 4 + 1) /\ width_ok 12 (43 + 1) /\
  2 * 2 ^ Z.of_nat (rounded 12 (Nat.max 20 43 + 4 + 1)) <= bn254_r /\ 2 * 2 ^ Z.of_nat (rounded 12 (43 + 1)) <= bn254_r /\
  ((Nat.max 20 43 + 4 + 1) mod 12 = 0)%nat /\ clamp 20 (2 ^ 18) = 2 ^ 18.
Proof. split; [exact bn254_prime|]. split; [apply Nat.ltb_lt; reflexivity|]. split; [w12|]. split; [w12|]. split; [nle|]. split; [nle|]. split; reflexivity. Qed.

(** ** C87  Sigmoid: accepted outputs *)

Lemma p87_sigmoid_sound p c tb kappa E nb x y K :
  prime p -> (0 < c)%nat -> (2 <= tb)%nat -> width_ok c (tb / 2) -> width_ok c (kappa + 1) ->
  2 * 2 ^ Z.of_nat tb <= p -> 2 ^ Z.of_nat (rounded c (tb / 2)) <= p -> 2 ^ Z.of_nat (rounded c (kappa + 1)) <= p ->
  width_ok c nb -> width_ok c (kappa + 2) ->
  let a := 2 ^ Z.of_nat kappa in let e := table_exp tb E (- x) in
  let R n := 2 ^ Z.of_nat (rounded c n) in
  0 <= e -> Z.abs x + 2 ^ Z.of_nat tb < p ->
  2 * ((2 * R nb + a) * (a * a + e + R (kappa + 1)%nat) + a * (a * a + 2 * a + R (kappa + 2)%nat)) <= p ->
  R (kappa + 1)%nat <= K * a -> R (kappa + 2)%nat <= K * a -> 2 * K + 4 <= a ->
  accepts p (table_rows c (exp_tables p tb E)) (sigmoid_element p c kappa nb tb (enc p x)) y ->
  exists Y, y = enc p Y /\ Z.abs (Y * (a * a + e) - a * a * a) <= (4 * K + 2) * (a * a).
Proof.
  intros Hp Hc T1 T2 T3 T4 T5 T6 H1 H2 a e R H3 H4 H5 H6 H7 H8 H. exact (sigmoid_sound p Hp c Hc tb kappa E  T1 T2 T3 T4 T5 T6 nb H1 H2 x y K H3 H4 H5 H6 H7 H8 H).
Qed.

Lemma p87_applies : forall E, table_exp 24 E (- 2 ^ 18) = 25281000000 -> prime bn254_r /\ width_ok 12 (24 / 2) /\ width_ok 12 (18 + 1) /\
  2 * 2 ^ Z.of_nat 24 <= bn254_r /\ 2 ^ Z.of_nat (rounded 12 (24 / 2)) <= bn254_r /\ 2 ^ Z.of_nat (rounded 12 (18 + 1)) <= bn254_r /\
  width_ok 12 64 /\ width_ok 12 (18 + 2) /\ 2 ^ Z.of_nat (rounded 12 (18 + 2)) <= 64 * 2 ^ 18 /\
  2 * ((2 * 2 ^ Z.of_nat (rounded 12 64) + 2 ^ 18) * (2 ^ 18 * 2 ^ 18 + table_exp 24 E (- 2 ^ 18) + 2 ^ Z.of_nat (rounded 12 (18 + 1)))
       + 2 ^ 18 * (2 ^ 18 * 2 ^ 18 + 2 * 2 ^ 18 + 2 ^ Z.of_nat (rounded 12 (18 + 2)))) <= bn254_r.
Proof. intros E HE. rewrite HE. split; [exact bn254_prime|]. split; [w12|]. split; [w12|]. split; [nle|]. split; [nle|]. split; [nle|]. split; [w12|]. split; [w12|]. split; nle. Qed.

(** ** C88  Sigmoid: the honest prover *)

Lemma p88_sigmoid_complete_refuted E y :
  E 1572864 = 105756438 -> E 0 = 262144 ->
  ~ accepts bn254_r (table_rows 12 (exp_tables bn254_r 24 E)) (sigmoid_element bn254_r 12 18 64 24 (enc bn254_r (- 6 * 2 ^ 18))) y.
Proof.
  intros E1 E2 H.
  assert (EP : ExpLookup.exp_product 24 E (- (- 6 * 2 ^ 18)) = 105756438 * 262144).
  { change (E 1572864 * E 0 = 105756438 * 262144). rewrite E1, E2. reflexivity. }
  apply (sigmoid_acc bn254_r bn254_prime 12 ltac:(lia) 24 18 E ltac:(lia) ltac:(w12) ltac:(w12) ltac:(nle) ltac:(nle) ltac:(nle) 64 ltac:(w12) ltac:(w12)) in H.
  2:{ rewrite EP. nle. } 2:{ nlt. } 2:{ rewrite EP. nle. }
  destruct H as (_ & Y & r & t & _ & _ & _ & Hr & Ht & Hrel). rewrite EP in Hrel. unfold sig_rel in Hrel.
  unfold rci in Hr, Ht. change (pow2 18) with 262144 in Hrel.
  change (pow2 (18 + 1)) with 524288 in Hr. change (pow2 (rounded 12 (18 + 1))) with 16777216 in Hr.
  change (pow2 (18 + 2)) with 1048576 in Ht. change (pow2 (rounded 12 (18 + 2))) with 16777216 in Ht.
  destruct (Z_le_gt_dec Y 648) as [HY|HY].
  - assert (Y * (262144 * 262144 + 105756438 * 262144 - r) <= 648 * (262144 * 262144 + 105756438 * 262144 - r))
      by (apply Z.mul_le_mono_nonneg_r; lia). lia.
  - assert (649 * (262144 * 262144 + 105756438 * 262144 - r) <= Y * (262144 * 262144 + 105756438 * 262144 - r))
      by (apply Z.mul_le_mono_nonneg_r; lia). lia.
Qed.

Lemma p88_sigmoid_complete_partial p c tb kappa E G nb x n :
  prime p -> (0 < c)%nat -> (2 <= tb)%nat -> width_ok c (tb / 2) -> width_ok c (kappa + 1) ->
  2 * 2 ^ Z.of_nat tb <= p -> 2 ^ Z.of_nat (rounded c (tb / 2)) <= p -> 2 ^ Z.of_nat (rounded c (kappa + 1)) <= p ->
  width_ok c nb -> width_ok c (kappa + 2) ->
  let a := 2 ^ Z.of_nat kappa in let e := table_exp tb E (- x) / a in
  key tb (- x) -> 0 <= table_exp tb E (- x) -> e < 3 * a ->
  (kappa < nb)%nat -> 2 ^ Z.of_nat (rounded c nb) <= p -> 2 ^ Z.of_nat (rounded c (kappa + 2)) <= p -> 4 * a * a <= p ->
  answers_exp p tb a E G -> G 14%nat [enc p x; enc p a] 1%nat = Some [enc p n] ->
  nearest_quotient (a * a) (a + e) n ->
  run (honest_with G) (table_rowsb c (exp_tables p tb E)) (sigmoid_element p c kappa nb tb (enc p x)) = Some (enc p n).
Proof.
  intros Hp Hc T1 T2 T3 T4 T5 T6 H1 H2 a e H3 H4 H5 H6 H7 H8 H9 H10 H11 H12. exact (sigmoid_run p Hp c Hc tb kappa E G T1 T2 T3 T4 T5 T6 nb H1 H2 x n H3 H4 H5 H6 H7 H8 H9 H10 H11 H12).
Qed.

Lemma p88_applies : prime bn254_r /\ width_ok 12 (24 / 2) /\ width_ok 12 (18 + 1) /\
  2 * 2 ^ Z.of_nat 24 <= bn254_r /\ 2 ^ Z.of_nat (rounded 12 (24 / 2)) <= bn254_r /\ 2 ^ Z.of_nat (rounded 12 (18 + 1)) <= bn254_r /\
  width_ok 12 64 /\ width_ok 12 (18 + 2) /\ key 24 (- 2 ^ 18) /\ nearest_quotient (2 ^ 18 * 2 ^ 18) (2 ^ 18 + 96437) 191643.
Proof. split; [exact bn254_prime|]. split; [w12|]. split; [w12|]. split; [nle|]. split; [nle|]. split; [nle|]. split; [w12|]. split; [w12|]. split; [split; [nle|nlt]|]. unfold nearest_quotient. vm_compute. discriminate. Qed.

(** ** C89  Tanh: accepted outputs *)

Lemma p89_tanh_sound p c tb kappa E nb x y K :
  prime p -> (0 < c)%nat -> (2 <= tb)%nat -> width_ok c (tb / 2) -> width_ok c (kappa + 1) ->
  2 * 2 ^ Z.of_nat tb <= p -> 2 ^ Z.of_nat (rounded c (tb / 2)) <= p -> 2 ^ Z.of_nat (rounded c (kappa + 1)) <= p ->
  width_ok c (nb + 1) -> width_ok c (kappa + 3) ->
  let a := 2 ^ Z.of_nat kappa in let e := table_exp tb E (2 * x) in
  let R n := 2 ^ Z.of_nat (rounded c n) in
  0 <= e -> 2 * Z.abs x + 2 ^ Z.of_nat tb < p ->
  2 * ((3 * R (nb + 1)%nat + 2 * a) * (a * a + e + R (kappa + 1)%nat)
       + a * (a * a + e + R (kappa + 1)%nat + 6 * a + 2 * R (kappa + 3)%nat)) <= p ->
  R (kappa + 1)%nat <= K * a -> 10 <= a ->
  accepts p (table_rows c (exp_tables p tb E)) (tanh_element p c kappa nb tb (enc p x)) y ->
  exists Y, y = enc p Y /\ Z.abs (Y * (e + a * a) - a * (e - a * a)) <= (8 * K + 5) * (a * a).
Proof.
  intros Hp Hc T1 T2 T3 T4 T5 T6 H1 H2 a e R H3 H4 H5 H6 H7 H. exact (tanh_sound p Hp c Hc tb kappa E  T1 T2 T3 T4 T5 T6 nb H1 H2 x y K H3 H4 H5 H6 H7 H).
Qed.

Lemma p89_applies : forall E, table_exp 24 E (2 * 2 ^ 18) = 507770000000 -> prime bn254_r /\ width_ok 12 (24 / 2) /\ width_ok 12 (18 + 1) /\
  2 * 2 ^ Z.of_nat 24 <= bn254_r /\ 2 ^ Z.of_nat (rounded 12 (24 / 2)) <= bn254_r /\ 2 ^ Z.of_nat (rounded 12 (18 + 1)) <= bn254_r /\
  width_ok 12 (64 + 1) /\ width_ok 12 (18 + 3) /\
  2 * ((3 * 2 ^ Z.of_nat (rounded 12 (64 + 1)) + 2 * 2 ^ 18) * (2 ^ 18 * 2 ^ 18 + table_exp 24 E (2 * 2 ^ 18) + 2 ^ Z.of_nat (rounded 12 (18 + 1)))
       + 2 ^ 18 * (2 ^ 18 * 2 ^ 18 + table_exp 24 E (2 * 2 ^ 18) + 2 ^ Z.of_nat (rounded 12 (18 + 1)) + 6 * 2 ^ 18 + 2 * 2 ^ Z.of_nat (rounded 12 (18 + 3)))) <= bn254_r.
Proof. intros E HE. rewrite HE. split; [exact bn254_prime|]. split; [w12|]. split; [w12|]. split; [nle|]. split; [nle|]. split; [nle|]. split; [w12|]. split; [w12|]. nle. Qed.

(** ** C90  Tanh: the honest prover *)

Lemma p90_tanh_complete_refuted E y :
  E 1572864 = 105756438 -> E 0 = 262144 ->
  ~ accepts bn254_r (table_rows 12 (exp_tables bn254_r 24 E)) (tanh_element bn254_r 12 18 64 24 (enc bn254_r (3 * 2 ^ 18))) y.
Proof.
  intros E1 E2 H.
  assert (EP : ExpLookup.exp_product 24 E (2 * (3 * 2 ^ 18)) = 105756438 * 262144).
  { change (E 1572864 * E 0 = 105756438 * 262144). rewrite E1, E2. reflexivity. }
  apply (tanh_acc bn254_r bn254_prime 12 ltac:(lia) 24 18 E ltac:(lia) ltac:(w12) ltac:(w12) ltac:(nle) ltac:(nle) ltac:(nle) 64 ltac:(w12) ltac:(w12)) in H.
  2:{ rewrite EP. nle. } 2:{ nlt. } 2:{ rewrite EP. nle. }
  destruct H as (_ & Y & r & t & _ & _ & _ & Hr & Ht & Ht2 & Hrel). rewrite EP in Hrel. unfold tanh_rel in Hrel.
  unfold rci in Hr, Ht, Ht2. change (pow2 18) with 262144 in *.
  change (pow2 (18 + 1)) with 524288 in *. change (pow2 (rounded 12 (18 + 1))) with 16777216 in *.
  change (pow2 (18 + 3)) with 2097152 in *. change (pow2 (rounded 12 (18 + 3))) with 16777216 in *.
  destruct (Z_le_gt_dec Y (262144 - 1297)) as [HY|HY].
  - assert (Y * (262144 * 262144 + 105756438 * 262144 - r) <= (262144 - 1297) * (262144 * 262144 + 105756438 * 262144 - r))
      by (apply Z.mul_le_mono_nonneg_r; lia). lia.
  - assert ((262144 - 1296) * (262144 * 262144 + 105756438 * 262144 - r) <= Y * (262144 * 262144 + 105756438 * 262144 - r))
      by (apply Z.mul_le_mono_nonneg_r; lia). lia.
Qed.

Lemma p90_tanh_complete_partial p c tb kappa E G nb x n :
  prime p -> (0 < c)%nat -> (2 <= tb)%nat -> width_ok c (tb / 2) -> width_ok c (kappa + 1) ->
  2 * 2 ^ Z.of_nat tb <= p -> 2 ^ Z.of_nat (rounded c (tb / 2)) <= p -> 2 ^ Z.of_nat (rounded c (kappa + 1)) <= p ->
  width_ok c (nb + 1) -> width_ok c (kappa + 3) ->
  let a := 2 ^ Z.of_nat kappa in let e := table_exp tb E (2 * x) / a in
  key tb (2 * x) -> 0 <= table_exp tb E (2 * x) -> e <= 5 * a ->
  (kappa < nb)%nat -> 2 ^ Z.of_nat (rounded c (nb + 1)) <= p -> 2 ^ Z.of_nat (rounded c (kappa + 3)) <= p -> 6 * a * a <= p ->
  answers_exp p tb a E G -> G 15%nat [enc p x; enc p a] 1%nat = Some [enc p n] ->
  nearest_quotient ((e - a) * a) (e + a) n ->
  run (honest_with G) (table_rowsb c (exp_tables p tb E)) (tanh_element p c kappa nb tb (enc p x)) = Some (enc p n).
Proof.
  intros Hp Hc T1 T2 T3 T4 T5 T6 H1 H2 a e H3 H4 H5 H6 H7 H8 H9 H10 H11 H12. exact (tanh_run p Hp c Hc tb kappa E G T1 T2 T3 T4 T5 T6 nb H1 H2 x n H3 H4 H5 H6 H7 H8 H9 H10 H11 H12).
Qed.

Lemma p90_applies : prime bn254_r /\ width_ok 12 (24 / 2) /\ width_ok 12 (18 + 1) /\
  2 * 2 ^ Z.of_nat 24 <= bn254_r /\ 2 ^ Z.of_nat (rounded 12 (24 / 2)) <= bn254_r /\ 2 ^ Z.of_nat (rounded 12 (18 + 1)) <= bn254_r /\
  width_ok 12 (64 + 1) /\ width_ok 12 (18 + 3) /\ key 24 (2 * 2 ^ 17) /\ nearest_quotient ((712581 - 2 ^ 18) * 2 ^ 18) (712581 + 2 ^ 18) 121141.
Proof. split; [exact bn254_prime|]. split; [w12|]. split; [w12|]. split; [nle|]. split; [nle|]. split; [nle|]. split; [w12|]. split; [w12|]. split; [split; [nle|nlt]|]. unfold nearest_quotient. vm_compute. discriminate. Qed.

(** ** C91  Log: accepted outputs *)

Lemma p91_log_sound p c tb kappa E nb x y K :
  prime p -> (0 < c)%nat -> (2 <= tb)%nat -> width_ok c (tb / 2) -> width_ok c (kappa + 1) ->
  2 * 2 ^ Z.of_nat tb <= p -> 2 ^ Z.of_nat (rounded c (tb / 2)) <= p -> 2 ^ Z.of_nat (rounded c (kappa + 1)) <= p ->
  width_ok c nb -> width_ok c (kappa + 3) ->
  let a := 2 ^ Z.of_nat kappa in let R n := 2 ^ Z.of_nat (rounded c n) in
  - R nb < x < R nb ->
  (forall k, key tb k -> 0 <= table_exp tb E k /\
     table_exp tb E k + R nb * a + R (kappa + 1)%nat + 8 * a + 2 * R (kappa + 3)%nat + 2 * R nb <= p) ->
  R (kappa + 1)%nat <= K * a ->
  accepts p (table_rows c (exp_tables p tb E)) (log_element p c kappa nb tb (enc p x)) y ->
  exists Y, y = enc p Y /\ key tb Y /\ Z.abs (table_exp tb E Y - a * x) <= (K + 6) * a.
Proof.
  intros Hp Hc T1 T2 T3 T4 T5 T6 H1 H2 a R H3 H4 H5 H. exact (log_sound p Hp c Hc tb kappa E  T1 T2 T3 T4 T5 T6 nb H1 H2 x y K H3 H4 H5 H).
Qed.

Lemma p91_applies : forall E, (forall k, 0 <= E k <= 2 ^ 64) -> prime bn254_r /\ width_ok 12 (24 / 2) /\ width_ok 12 (18 + 1) /\
  2 * 2 ^ Z.of_nat 24 <= bn254_r /\ 2 ^ Z.of_nat (rounded 12 (24 / 2)) <= bn254_r /\ 2 ^ Z.of_nat (rounded 12 (18 + 1)) <= bn254_r /\
  width_ok 12 64 /\ width_ok 12 (18 + 3) /\
  (forall k, key 24 k -> 0 <= table_exp 24 E k /\ table_exp 24 E k + 2 ^ Z.of_nat (rounded 12 64) * 2 ^ 18
     + 2 ^ Z.of_nat (rounded 12 (18 + 1)) + 8 * 2 ^ 18 + 2 * 2 ^ Z.of_nat (rounded 12 (18 + 3)) + 2 * 2 ^ Z.of_nat (rounded 12 64) <= bn254_r).
Proof. intros E HE. split; [exact bn254_prime|]. split; [w12|]. split; [w12|]. split; [nle|]. split; [nle|]. split; [nle|]. split; [w12|]. split; [w12|]. intros k _. unfold table_exp.
  set (u := E (k / 2 ^ Z.of_nat (24 / 2) * 2 ^ Z.of_nat (24 / 2))). set (v := E (k mod 2 ^ Z.of_nat (24 / 2))).
  assert (Hu : 0 <= u <= 2 ^ 64) by apply HE. assert (Hv : 0 <= v <= 2 ^ 64) by apply HE.
  assert (0 <= u * v) by (apply Z.mul_nonneg_nonneg; lia). split; [auto|].
  assert (u * v <= 2 ^ 64 * 2 ^ 64) by (apply Z.mul_le_mono_nonneg; lia).
  apply Z.le_trans with (2 ^ 64 * 2 ^ 64 + 2 ^ Z.of_nat (rounded 12 64) * 2 ^ 18
     + 2 ^ Z.of_nat (rounded 12 (18 + 1)) + 8 * 2 ^ 18 + 2 * 2 ^ Z.of_nat (rounded 12 (18 + 3)) + 2 * 2 ^ Z.of_nat (rounded 12 64)).
  + lia. + nle. Qed.

(** ** C92  Log: the honest prover *)

Lemma p92_log_complete_refuted E G :
  E 724992 = 4165197 -> E 1825 = 263975 -> answers_exp bn254_r 24 (2 ^ 18) E G ->
  G 19%nat [2 ^ 22; 2 ^ 18] 1%nat = Some [726817] ->
  run (honest_with G) (table_rowsb 12 (exp_tables bn254_r 24 E)) (log_element bn254_r 12 18 64 24 (2 ^ 22)) = None.
Proof.
  intros E1 E2 HE HG.
  assert (EP : ExpLookup.exp_product 24 E 726817 = 4165197 * 263975).
  { change (E 724992 * E 1825 = 4165197 * 263975). rewrite E1, E2. reflexivity. }
  change (2 ^ 22) with (enc bn254_r (2 ^ 22)).
  apply (log_run_fails bn254_r bn254_prime 12 ltac:(lia) 24 18 E G ltac:(lia) ltac:(w12) ltac:(w12) ltac:(nle) ltac:(nle) ltac:(nle) 64 ltac:(w12) ltac:(w12) (2 ^ 22) 726817).
  - split; [nle|nlt].
  - split; [nle|nlt].
  - rewrite EP. split; [nle|nlt].
  - nle.
  - nle.
  - exact HE.
  - exact HG.
  - rewrite EP. nle.
  - rewrite EP. nle.
Qed.

Lemma p92_log_complete_partial p c tb kappa E G nb x n :
  prime p -> (0 < c)%nat -> (2 <= tb)%nat -> width_ok c (tb / 2) -> width_ok c (kappa + 1) ->
  2 * 2 ^ Z.of_nat tb <= p -> 2 ^ Z.of_nat (rounded c (tb / 2)) <= p -> 2 ^ Z.of_nat (rounded c (kappa + 1)) <= p ->
  width_ok c nb -> width_ok c (kappa + 3) ->
  let a := 2 ^ Z.of_nat kappa in
  1 <= x < 2 ^ Z.of_nat nb -> key tb n -> 0 <= table_exp tb E n < p ->
  2 ^ Z.of_nat (rounded c nb) <= p -> 2 ^ Z.of_nat (rounded c (kappa + 3)) <= p ->
  answers_exp p tb a E G -> G 19%nat [enc p x; enc p a] 1%nat = Some [enc p n] ->
  Z.abs (table_exp tb E n / a - x) <= 2 ->
  run (honest_with G) (table_rowsb c (exp_tables p tb E)) (log_element p c kappa nb tb (enc p x)) = Some (enc p n).
Proof.
  intros Hp Hc T1 T2 T3 T4 T5 T6 H1 H2 a H3 H4 H5 H6 H7 H8 H9 H10. exact (log_run p Hp c Hc tb kappa E G T1 T2 T3 T4 T5 T6 nb H1 H2 x n H3 H4 H5 H6 H7 H8 H9 H10).
Qed.

Lemma p92_applies : forall E, E 180224 = 521336 -> E 1480 = 263628 -> prime bn254_r /\ width_ok 12 (24 / 2) /\ width_ok 12 (18 + 1) /\
  2 * 2 ^ Z.of_nat 24 <= bn254_r /\ 2 ^ Z.of_nat (rounded 12 (24 / 2)) <= bn254_r /\ 2 ^ Z.of_nat (rounded 12 (18 + 1)) <= bn254_r /\
  width_ok 12 64 /\ width_ok 12 (18 + 3) /\ key 24 181704 /\ Z.abs (table_exp 24 E 181704 / 2 ^ 18 - 2 ^ 19) <= 2.
Proof. intros E H1 H2. split; [exact bn254_prime|]. split; [w12|]. split; [w12|]. split; [nle|]. split; [nle|]. split; [nle|]. split; [w12|]. split; [w12|]. split; [split; [nle|nlt]|]. change (Z.abs (E 180224 * E 1480 / 2 ^ 18 - 2 ^ 19) <= 2). rewrite H1, H2. nle. Qed.

(** ** C93  Gelu: accepted outputs *)

Lemma p93_gelu_sound_refuted p c tb kappa E coef outer :
  prime p -> (0 < c)%nat -> (2 <= tb)%nat -> width_ok c (tb / 2) -> width_ok c (kappa + 1) ->
  2 * 2 ^ Z.of_nat tb <= p -> 2 ^ Z.of_nat (rounded c (tb / 2)) <= p -> 2 ^ Z.of_nat (rounded c (kappa + 1)) <= p ->
  (1 <= kappa)%nat -> width_ok c kappa -> width_ok c (2 * kappa) -> width_ok c (kappa + 4) ->
  2 ^ Z.of_nat (rounded c kappa) <= p -> 2 ^ Z.of_nat (rounded c (2 * kappa)) <= p -> 2 ^ Z.of_nat (rounded c (kappa + 4)) <= p ->
  E 0 = 2 ^ Z.of_nat kappa ->
  exists y, accepts p (table_rows c (exp_tables p tb E)) (gelu_element p c kappa tb coef outer 0) y /\
    (2 * 2 ^ Z.of_nat kappa * y) mod p = 1.
Proof.
  intros Hp Hc T1 T2 T3 T4 T5 T6 H1 H2 H3 H4 H5 H6 H7 H. exact (gelu_garbage p Hp c Hc tb kappa E  T1 T2 T3 T4 T5 T6 coef outer H1 H2 H3 H4 H5 H6 H7 H).
Qed.

Lemma p93_applies : prime bn254_r /\ width_ok 12 (24 / 2) /\ width_ok 12 (18 + 1) /\
  2 * 2 ^ Z.of_nat 24 <= bn254_r /\ 2 ^ Z.of_nat (rounded 12 (24 / 2)) <= bn254_r /\ 2 ^ Z.of_nat (rounded 12 (18 + 1)) <= bn254_r /\
  width_ok 12 18 /\ width_ok 12 (2 * 18) /\ width_ok 12 (18 + 4) /\
  2 ^ Z.of_nat (rounded 12 18) <= bn254_r /\ 2 ^ Z.of_nat (rounded 12 (2 * 18)) <= bn254_r /\ 2 ^ Z.of_nat (rounded 12 (18 + 4)) <= bn254_r.
Proof. split; [exact bn254_prime|]. split; [w12|]. split; [w12|]. split; [nle|]. split; [nle|]. split; [nle|]. split; [w12|]. split; [w12|]. split; [w12|]. split; [nle|]. split; nle. Qed.

(** ** C94  Gelu: the honest prover *)

Lemma p94_gelu_complete_refuted E G :
  run (honest_with G) (table_rowsb 12 (exp_tables bn254_r 24 E))
    (gelu_element bn254_r 12 18 24 11722 418321 (enc bn254_r (- 2 ^ 18))) = None.
Proof.
  set (F := exp_tables bn254_r 24 E).
  destruct (run _ _ _) as [v|] eqn:R; [exfalso|reflexivity].
  unfold gelu_element in R. cbv zeta in R. rewrite run_bind in R.
  destruct (run _ _ (hint1 _ _)) as [y|]; [|discriminate R].
  set (z := 508277400523320235805909622515228939016820338922333139136120949738) in *.
  assert (D1 : run (honest_with G) (table_rowsb 12 F) (div_rem bn254_r 12 (mul bn254_r (enc bn254_r (- 2 ^ 18)) (enc bn254_r (- 2 ^ 18))) (const bn254_r (pow2 18)) 18) = Some (2 ^ 18)).
  { unfold F. rewrite (rem_run bn254_r bn254_prime 12 ltac:(lia) 24 18 E G ltac:(lia)); [reflexivity|w12|nle|nlt|nlt|nlt]. }
  rewrite run_bind, D1 in R.
  assert (D2 : run (honest_with G) (table_rowsb 12 F) (div_rem bn254_r 12 (mul bn254_r (const bn254_r 11722) (mul bn254_r (2 ^ 18) (enc bn254_r (- 2 ^ 18)))) (const bn254_r (pow2 18 * pow2 18)) (2 * 18)) = Some (bn254_r / 2 ^ 36 - 11722)).
  { unfold F. rewrite (rem_run bn254_r bn254_prime 12 ltac:(lia) 24 18 E G ltac:(lia)); [reflexivity|w12|nle|nlt|nlt|nlt]. }
  rewrite run_bind, D2 in R.
  assert (D3 : run (honest_with G) (table_rowsb 12 F) (div_rem bn254_r 12 (mul bn254_r (const bn254_r 418321) (add bn254_r (enc bn254_r (- 2 ^ 18)) (bn254_r / 2 ^ 36 - 11722))) (const bn254_r (pow2 18)) 18) = Some z).
  { unfold F. rewrite (rem_run bn254_r bn254_prime 12 ltac:(lia) 24 18 E G ltac:(lia)); [reflexivity|w12|nle|nlt|nlt|nlt]. }
  rewrite run_bind, D3 in R. rewrite run_bind in R.
  destruct (run _ _ (verify_exp _ _ _ _ _)) as [e|] eqn:D4; [|discriminate R].
  unfold F in D4. apply (exp_run_range bn254_r bn254_prime 12 ltac:(lia) 24 18 E G ltac:(lia) ltac:(w12) ltac:(w12) ltac:(nle) ltac:(nle) ltac:(nle)) in D4.
  - vm_compute in D4. discriminate D4.
  - split; [nle|nlt].
Qed.

Lemma p94_gelu_complete_partial p c tb kappa E G coef outer x n :
  prime p -> (0 < c)%nat -> (2 <= tb)%nat -> width_ok c (tb / 2) -> width_ok c (kappa + 1) ->
  2 * 2 ^ Z.of_nat tb <= p -> 2 ^ Z.of_nat (rounded c (tb / 2)) <= p -> 2 ^ Z.of_nat (rounded c (kappa + 1)) <= p ->
  (1 <= kappa)%nat -> width_ok c kappa -> width_ok c (2 * kappa) -> width_ok c (kappa + 4) ->
  2 ^ Z.of_nat (rounded c kappa) <= p -> 2 ^ Z.of_nat (rounded c (2 * kappa)) <= p -> 2 ^ Z.of_nat (rounded c (kappa + 4)) <= p ->
  let a := 2 ^ Z.of_nat kappa in
  let cube := coef * (x * x / a * x) in let z := outer * (x + cube / (a * a)) / a in
  let e := table_exp tb E (- z) in
  a * a < p -> 0 <= x -> 0 <= coef -> 0 <= outer -> x * x < p -> cube < p -> outer * (x + cube / (a * a)) < p ->
  key tb (- z) -> 0 <= e < p -> e / a < 9 * a ->
  answers_exp p tb a E G -> G 16%nat [enc p x; enc p a] 1%nat = Some [enc p n] ->
  nearest_quotient (x * a) (a + e / a) n ->
  run (honest_with G) (table_rowsb c (exp_tables p tb E)) (gelu_element p c kappa tb coef outer (enc p x)) = Some (enc p n).
Proof.
  intros Hp Hc T1 T2 T3 T4 T5 T6 H1 H2 H3 H4 H5 H6 H7 a cube z e H8 H9 H10 H11 H12 H13 H14 H15 H16 H17 H18 H19 H20.
  exact (gelu_run p Hp c Hc tb kappa E G T1 T2 T3 T4 T5 T6 coef outer H1 H2 H3 H4 H5 H6 H7 H8 x n H9 H10 H11 H12 H13 H14 H15 H16 H17 H18 H19 H20).
Qed.

Lemma p94_applies : prime bn254_r /\ width_ok 12 (24 / 2) /\ width_ok 12 (18 + 1) /\
  2 * 2 ^ Z.of_nat 24 <= bn254_r /\ 2 ^ Z.of_nat (rounded 12 (24 / 2)) <= bn254_r /\ 2 ^ Z.of_nat (rounded 12 (18 + 1)) <= bn254_r /\
  width_ok 12 18 /\ width_ok 12 (2 * 18) /\ width_ok 12 (18 + 4) /\
  2 ^ Z.of_nat (rounded 12 18) <= bn254_r /\ 2 ^ Z.of_nat (rounded 12 (2 * 18)) <= bn254_r /\ 2 ^ Z.of_nat (rounded 12 (18 + 4)) <= bn254_r /\
  (let a := 2 ^ 18 in let cube := 11722 * (a * a / a * a) in 418321 * (a + cube / (a * a)) / a = 437026 /\ key 24 (- 437026)).
Proof. split; [exact bn254_prime|]. split; [w12|]. split; [w12|]. split; [nle|]. split; [nle|]. split; [nle|]. split; [w12|]. split; [w12|]. split; [w12|]. split; [nle|]. split; [nle|]. split; [nle|]. cbv zeta. split; [reflexivity|]. split; [nle|nlt]. Qed.

(** ** C95  Erf: accepted outputs *)

Lemma p95_erf_sound_refuted p c tb kappa E k nb Y :
  prime p -> (0 < c)%nat -> (2 <= tb)%nat -> width_ok c (tb / 2) -> width_ok c (kappa + 1) ->
  2 * 2 ^ Z.of_nat tb <= p -> 2 ^ Z.of_nat (rounded c (tb / 2)) <= p -> 2 ^ Z.of_nat (rounded c (kappa + 1)) <= p ->
  width_ok c kappa -> width_ok c nb -> width_ok c (nb + 1) -> width_ok c (kappa + 2) -> width_ok c (kappa + 3) ->
  2 ^ Z.of_nat (rounded c kappa) <= p -> 2 ^ Z.of_nat (rounded c nb) <= p -> 2 ^ Z.of_nat (rounded c (nb + 1)) <= p ->
  2 ^ Z.of_nat (rounded c (kappa + 2)) <= p -> 2 ^ Z.of_nat (rounded c (kappa + 3)) <= p -> (kappa < nb)%nat ->
  let a := 2 ^ Z.of_nat kappa in
  let V := a - (e_a1 k + (e_a3 k + e_a5 k)) + (e_a2 k + e_a4 k) in
  E 0 = a -> - (3 * a) < V < 3 * a -> - a <= Y <= a ->
  accepts p (table_rows c (exp_tables p tb E)) (erf_element p c kappa nb tb k 0) (enc p Y).
Proof.
  intros Hp Hc T1 T2 T3 T4 T5 T6 H1 H2 H3 H4 H5 H6 H7 H8 H9 H10 H11 a V HE HV HY.
  destruct (erf_zero p Hp c Hc tb kappa E  T1 T2 T3 T4 T5 T6 k nb H11 H1 H2 H4 H6 H7 H9 HE) as [Z1 Z2].
  exact (erf_free p Hp c Hc tb kappa E T1 k nb H5 H3 H10 H8 H11 0 0 1 V Y Z1 (or_introl eq_refl) Z2 HV HY).
Qed.

Lemma p95_erf_free_partial p c tb kappa E k nb x ax sg V Y :
  prime p -> (0 < c)%nat -> (2 <= tb)%nat -> width_ok c (kappa + 3) -> width_ok c (nb + 1) ->
  2 ^ Z.of_nat (rounded c (kappa + 3)) <= p -> 2 ^ Z.of_nat (rounded c (nb + 1)) <= p -> (kappa < nb)%nat ->
  let T := table_rows c (exp_tables p tb E) in let a := 2 ^ Z.of_nat kappa in
  accepts p T (erf_abs p c nb x) (ax, enc p sg) -> sg = 1 \/ sg = -1 ->
  accepts p T (erf_poly p c kappa nb tb k ax) (enc p V) -> - (3 * a) < V < 3 * a -> - a <= Y <= a ->
  accepts p T (erf_element p c kappa nb tb k x) (enc p Y).
Proof.
  intros Hp Hc T1 H1 H2 H3 H4 H5 T a H6 H7 H8 H9 H10.
  exact (erf_free p Hp c Hc tb kappa E T1 k nb H1 H2 H3 H4 H5 x ax sg V Y H6 H7 H8 H9 H10).
Qed.

Lemma p95_erf_range_partial p c tb kappa E k nb x y :
  prime p -> (0 < c)%nat -> (2 <= tb)%nat -> width_ok c (nb + 1) -> (kappa < nb)%nat ->
  ((nb + 1) mod c = 0)%nat -> 2 * 2 ^ Z.of_nat (nb + 1) <= p ->
  accepts p (table_rows c (exp_tables p tb E)) (erf_element p c kappa nb tb k x) y ->
  exists Y, - 2 ^ Z.of_nat kappa <= Y <= 2 ^ Z.of_nat kappa /\ y = enc p Y.
Proof.
  intros Hp Hc T1 H1 H2 H3 H4 H. exact (erf_range p Hp c Hc tb kappa E T1 k nb H1 H2 x y H3 H4 H).
Qed.

Lemma p95_applies : prime bn254_r /\ width_ok 12 (24 / 2) /\ width_ok 12 (18 + 1) /\
  2 * 2 ^ Z.of_nat 24 <= bn254_r /\ 2 ^ Z.of_nat (rounded 12 (24 / 2)) <= bn254_r /\ 2 ^ Z.of_nat (rounded 12 (18 + 1)) <= bn254_r /\
  width_ok 12 18 /\ width_ok 12 64 /\ width_ok 12 (64 + 1) /\ width_ok 12 (18 + 2) /\ width_ok 12 (18 + 3) /\
  2 ^ Z.of_nat (rounded 12 18) <= bn254_r /\ 2 ^ Z.of_nat (rounded 12 64) <= bn254_r /\ 2 ^ Z.of_nat (rounded 12 (64 + 1)) <= bn254_r /\
  2 ^ Z.of_nat (rounded 12 (18 + 2)) <= bn254_r /\ 2 ^ Z.of_nat (rounded 12 (18 + 3)) <= bn254_r /\
  2 ^ 18 - (66802 + (372615 + 278241)) + (74579 + 380935) = 0 /\ width_ok 12 (59 + 1) /\ ((59 + 1) mod 12 = 0)%nat /\ 2 * 2 ^ Z.of_nat (59 + 1) <= bn254_r.
Proof. split; [exact bn254_prime|]. split; [w12|]. split; [w12|]. split; [nle|]. split; [nle|]. split; [nle|]. do 5 (split; [w12|]). do 5 (split; [nle|]). split; [reflexivity|]. split; [w12|]. split; [reflexivity|nle]. Qed.

(** ** C96  LayerNormalization: accepted outputs *)

Lemma p96_layer_norm_sound_refuted F :
  accepts bn254_r (table_rows 12 F)
    (layer_norm_lane bn254_r 12 18 64 20 [2 ^ 18; 2 ^ 18] [0; 0] (map (enc bn254_r) [- 2 ^ 18; 2 ^ 18])) [0; 0].
Proof.
  assert (W1 : width_ok 12 (np2_bits (2 * ln_tol 18 [2 ^ 18; 2 ^ 18] + 1))) by w12.
  assert (W2 : width_ok 12 (np2_bits (2 * Z.of_nat (length [- 2 ^ 18; 2 ^ 18]) + 1))) by w12.
  assert (W3 : width_ok 12 (np2_bits (2 * (Z.of_nat (length [- 2 ^ 18; 2 ^ 18]) * pow2 18 * pow2 18)))) by w12.
  assert (Y : Forall2 (fun b Y => - pow2 (64 - 1) <= Y < pow2 64 - pow2 (64 - 1) /\ Z.abs (Y * pow2 18 - b) <= ln_tol 18 [2 ^ 18; 2 ^ 18]) [0; 0] [0; 0]).
  { constructor; [split; [split; [nle|nlt]|nle]|]. constructor; [split; [split; [nle|nlt]|nle]|constructor]. }
  exact (ln_free bn254_r bn254_prime 12 ltac:(lia) F 18 64 20 ltac:(w12) ltac:(w12) ltac:(w12) ltac:(w12) ltac:(w12)
    [2 ^ 18; 2 ^ 18] [0; 0] [- 2 ^ 18; 2 ^ 18] eq_refl eq_refl W1 W2 W3 0 [0; 0] ltac:(nle) ltac:(nle) ltac:(nle) ltac:(nle) ltac:(nle) ltac:(nle) ltac:(nle) ltac:(nle)
    ltac:(nle) ltac:(split; [nle|nlt]) Y).
Qed.

Lemma p96_layer_norm_zero_deviation_partial p c F kappa nb mb gammas betas xs mean ys :
  prime p -> (0 < c)%nat ->
  let a := 2 ^ Z.of_nat kappa in let n := Z.of_nat (length xs) in
  let R w := 2 ^ Z.of_nat (rounded c w) in
  let tol := 2 * fold_right Z.max 0 (map Z.abs gammas) + a + 4 in
  let ds := (Nat.max (2 * nb + 1) (kappa + 1) - kappa)%nat in
  let wt := Z.to_nat (Z.log2_up (2 * tol + 1)) in
  let wm := Z.to_nat (Z.log2_up (2 * n + 1)) in
  let wv := Z.to_nat (Z.log2_up (2 * (n * a * a))) in
  xs <> [] -> length gammas = length xs -> length betas = length xs ->
  width_ok c kappa -> width_ok c (ds + 1) -> width_ok c nb -> width_ok c (nb + 1) -> width_ok c (mb + 1) ->
  width_ok c wt -> width_ok c wm -> width_ok c wv ->
  R kappa <= p -> R (ds + 1)%nat <= p -> R nb <= p -> R (nb + 1)%nat <= p -> R (mb + 1)%nat <= p ->
  R wt <= p -> R wm <= p -> R wv <= p ->
  Z.abs (zsum xs - n * mean) <= n -> - 2 ^ Z.of_nat nb <= mean < 2 ^ Z.of_nat nb ->
  Forall2 (fun b y => - 2 ^ Z.of_nat (nb - 1) <= y < 2 ^ Z.of_nat nb - 2 ^ Z.of_nat (nb - 1) /\ Z.abs (y * a - b) <= tol) betas ys ->
  accepts p (table_rows c F) (layer_norm_lane p c kappa nb mb gammas betas (map (enc p) xs)) (map (enc p) ys).
Proof.
  intros Hp Hc a n R tol ds wt wm wv Hne Lg Lb W1 W2 W3 W4 W5 W6 W7 W8 B1 B2 B3 B4 B5 B6 B7 B8.
  assert (Et : tol = ln_tol kappa gammas) by (symmetry; apply ln_tol_max).
  assert (Pt : 0 <= tol) by (rewrite Et; apply (tol_pos kappa gammas)).
  assert (Pn : 1 <= n) by (unfold n; destruct xs; [congruence|cbn [length]; lia]).
  assert (Pa : 1 <= a) by (unfold a; pose proof (pow2_pos kappa) as Q; unfold pow2 in Q; lia).
  assert (Pv : 1 <= n * a * a) by (assert (1 * 1 <= n * a) by (apply Z.mul_le_mono_nonneg; lia); assert (1 * 1 <= n * a * a) by (apply Z.mul_le_mono_nonneg; lia); lia).
  assert (E1 : wt = np2_bits (2 * ln_tol kappa gammas + 1)) by (unfold wt; rewrite Et, np2_bits_log2_up; [reflexivity|rewrite <- Et; lia]).
  assert (E2 : wm = np2_bits (2 * n + 1)) by (unfold wm; rewrite np2_bits_log2_up; [reflexivity|lia]).
  assert (E3 : wv = np2_bits (2 * (n * a * a))) by (unfold wv; rewrite np2_bits_log2_up; [reflexivity|lia]).
  rewrite E1 in *. rewrite E2 in *. rewrite E3 in *. rewrite Et in *.
  intros H1 H2 H3.
  exact (ln_free p Hp c Hc F kappa nb mb W1 W2 W3 W4 W5 gammas betas xs Lg Lb W6 W7 W8 mean ys B1 B2 B3 B4 B5 B6 B7 B8 H1 H2 H3).
Qed.

Lemma p96_layer_norm_sound_partial p c F kappa nb mb gammas betas xs ys B Gm Bb :
  prime p -> (0 < c)%nat ->
  let a := 2 ^ Z.of_nat kappa in let n := Z.of_nat (length xs) in
  let R w := 2 ^ Z.of_nat (rounded c w) in
  let tol := 2 * fold_right Z.max 0 (map Z.abs gammas) + a + 4 in
  let ds := (Nat.max (2 * nb + 1) (kappa + 1) - kappa)%nat in
  let wt := Z.to_nat (Z.log2_up (2 * tol + 1)) in
  let wm := Z.to_nat (Z.log2_up (2 * n + 1)) in
  let wv := Z.to_nat (Z.log2_up (2 * (n * a * a))) in
  xs <> [] -> length gammas = length xs -> length betas = length xs ->
  width_ok c kappa -> width_ok c (ds + 1) -> width_ok c nb -> width_ok c (nb + 1) -> width_ok c (mb + 1) ->
  width_ok c wt -> width_ok c wm -> width_ok c wv ->
  R kappa <= p -> R (ds + 1)%nat <= p -> R nb <= p -> R (nb + 1)%nat <= p -> R (mb + 1)%nat <= p ->
  R wt <= p -> R wm <= p -> R wv <= p ->
  (forall x, In x xs -> Z.abs x <= B) -> (forall g, In g gammas -> Z.abs g <= Gm) -> (forall b, In b betas -> Z.abs b <= Bb) ->
  (B + R (nb + 1)%nat) * R nb + 2 * (a * R (ds + 1)%nat) + R kappa < p -> R (ds + 1)%nat + 2 * R (mb + 1)%nat < p ->
  a * (R nb + 2 ^ Z.of_nat nb) + R (mb + 1)%nat * Gm + Bb + tol + 2 * R wt < p ->
  n * (B + R (nb + 1)%nat) + n + 2 * R wm < p -> n * (R (mb + 1)%nat * R (mb + 1)%nat) + 2 * R wv < p ->
  accepts p (table_rows c F) (layer_norm_lane p c kappa nb mb gammas betas (map (enc p) xs)) ys ->
  exists mean inv Ys Qs, ys = map (enc p) Ys /\ length Ys = length xs /\ length Qs = length xs /\
    - (R wm - 2 ^ Z.of_nat wm) <= zsum xs - n * mean + n < 2 ^ Z.of_nat wm /\
    2 ^ Z.of_nat nb - R nb <= inv < 2 ^ Z.of_nat nb /\
    zsum (map (fun q => q * q) Qs) < 2 ^ Z.of_nat wv /\
    forall i, (i < length xs)%nat -> let y := nth i Ys 0 in let q := nth i Qs 0 in
      2 ^ Z.of_nat nb - R nb <= y + 2 ^ Z.of_nat (nb - 1) < 2 ^ Z.of_nat nb /\
      2 ^ Z.of_nat (mb + 1) - R (mb + 1)%nat <= q + 2 ^ Z.of_nat mb < 2 ^ Z.of_nat (mb + 1) /\
      a - R kappa <= (nth i xs 0 - mean) * inv - a * q < a /\
      Z.abs (y * a - (q * nth i gammas 0 + nth i betas 0)) <= tol + (R wt - 2 ^ Z.of_nat wt).
Proof.
  intros Hp Hc a n R tol ds wt wm wv Hne Lg Lb W1 W2 W3 W4 W5 W6 W7 W8 B1 B2 B3 B4 B5 B6 B7 B8.
  assert (Et : tol = ln_tol kappa gammas) by (symmetry; apply ln_tol_max).
  assert (Pt : 0 <= tol) by (rewrite Et; apply (tol_pos kappa gammas)).
  assert (Pn : 1 <= n) by (unfold n; destruct xs; [congruence|cbn [length]; lia]).
  assert (Pa : 1 <= a) by (unfold a; pose proof (pow2_pos kappa) as Q; unfold pow2 in Q; lia).
  assert (Pv : 1 <= n * a * a) by (assert (1 * 1 <= n * a) by (apply Z.mul_le_mono_nonneg; lia); assert (1 * 1 <= n * a * a) by (apply Z.mul_le_mono_nonneg; lia); lia).
  assert (E1 : wt = np2_bits (2 * ln_tol kappa gammas + 1)) by (unfold wt; rewrite Et, np2_bits_log2_up; [reflexivity|rewrite <- Et; lia]).
  assert (E2 : wm = np2_bits (2 * n + 1)) by (unfold wm; rewrite np2_bits_log2_up; [reflexivity|lia]).
  assert (E3 : wv = np2_bits (2 * (n * a * a))) by (unfold wv; rewrite np2_bits_log2_up; [reflexivity|lia]).
  rewrite E1 in *. rewrite E2 in *. rewrite E3 in *. rewrite Et in *.
  intros H1 H2 H3 S1 S2 S3 S4 S5 H.
  destruct (ln_affine p Hp c Hc F kappa nb mb W1 W2 W3 W4 W5 gammas betas xs Lg Lb W6 W7 W8 ys B Gm Bb B1 B2 B3 B4 B7 B8 H1 H2 H3 S1 S2 S3 S4 S5 H)
    as (Mn & I & Ys & Qs & A1 & A2 & A3 & A4 & A5 & A6 & A7).
  exists Mn, I, Ys, Qs. split; [exact A1|]. split; [exact A2|]. split; [exact A3|]. unfold rci, pow2, zn in A4, A5, A6.
  fold n in A4. fold a in A6. fold n in A6. split; [unfold R; lia|]. split; [exact A5|]. split; [apply A6|].
  intros i Hi. destruct (A7 i Hi) as (C1 & C2 & C3 & C4 & C5). unfold rci, pow2, zn in C1, C2, C3, C4, C5.
  split; [exact C1|]. split; [exact C2|]. split; [exact C3|]. unfold a, R in *. cbv zeta. lia.
Qed.

Lemma p96_applies : prime bn254_r /\ width_ok 12 18 /\ width_ok 12 (Nat.max (2 * 64 + 1) (18 + 1) - 18 + 1) /\ width_ok 12 64 /\ width_ok 12 65 /\ width_ok 12 21 /\
  Z.log2_up (2 * (2 * 2 ^ 18 + 2 ^ 18 + 4) + 1) = 21 /\ Z.log2_up (2 * 2 + 1) = 3 /\ Z.log2_up (2 * (2 * 2 ^ 18 * 2 ^ 18)) = 38 /\
  width_ok 12 3 /\ width_ok 12 38 /\
  (2 ^ 63 + 2 ^ Z.of_nat (rounded 12 65)) * 2 ^ Z.of_nat (rounded 12 64) + 2 * (2 ^ 18 * 2 ^ Z.of_nat (rounded 12 112)) + 2 ^ Z.of_nat (rounded 12 18) < bn254_r.
Proof. split; [exact bn254_prime|]. do 5 (split; [w12|]). do 3 (split; [reflexivity|]). split; [w12|]. split; [w12|nlt]. Qed.

(** ** C97  LayerNormalization: the honest prover *)

Lemma p97_layer_norm_complete_refuted F G :
  G 21%nat (map (enc bn254_r) ([- 1000 * 2 ^ 18; 1000 * 2 ^ 18] ++ [2 ^ 18; 2 ^ 18] ++ [0; 0] ++ [2 ^ 18])) 4%nat =
    Some (map (enc bn254_r) ([- 2 ^ 18; 2 ^ 18] ++ [0; 262])) ->
  nearest_quotient (2 ^ 18) 1000 262 /\
  run (honest_with G) (table_rowsb 12 F)
    (layer_norm_lane bn254_r 12 18 64 20 [2 ^ 18; 2 ^ 18] [0; 0] (map (enc bn254_r) [- 1000 * 2 ^ 18; 1000 * 2 ^ 18])) = None.
Proof.
  intros HG. split; [unfold nearest_quotient; nle|].
  unfold layer_norm_lane. rewrite map_length. cbn [length Nat.eqb negb orb]. cbv zeta. rewrite run_bind.
  pose proof (rn_customn 12 F G 21 _ _ _ HG eq_refl) as E0. clear HG.
  match type of E0 with run ?h ?t (hintn ?k ?i ?m) = _ =>
    match goal with |- context [run h t (hintn k ?i' ?m')] => change (run h t (hintn k i' m')) with (run h t (hintn k i m)) end end.
  rewrite E0. clear E0. vm_compute. reflexivity.
Qed.

Lemma p97_layer_norm_complete_partial p c F G kappa nb mb gammas betas xs ys mean inv :
  prime p -> (0 < c)%nat ->
  let a := 2 ^ Z.of_nat kappa in let n := Z.of_nat (length xs) in
  let R w := 2 ^ Z.of_nat (rounded c w) in
  let tol := 2 * fold_right Z.max 0 (map Z.abs gammas) + a + 4 in
  let ds := (Nat.max (2 * nb + 1) (kappa + 1) - kappa)%nat in
  let wt := Z.to_nat (Z.log2_up (2 * tol + 1)) in
  let wm := Z.to_nat (Z.log2_up (2 * n + 1)) in
  let wv := Z.to_nat (Z.log2_up (2 * (n * a * a))) in
  xs <> [] -> length gammas = length xs -> length betas = length xs ->
  width_ok c kappa -> width_ok c (ds + 1) -> width_ok c nb -> width_ok c (nb + 1) -> width_ok c (mb + 1) ->
  width_ok c wt -> width_ok c wm -> width_ok c wv ->
  R kappa <= p -> R (ds + 1)%nat <= p -> R nb <= p -> R (nb + 1)%nat <= p -> R (mb + 1)%nat <= p ->
  R wt <= p -> R wm <= p -> R wv <= p ->
  let q x := (x - mean) * inv / a in
  a * R (ds + 1)%nat + R kappa <= p ->
  G 21%nat (map (enc p) xs ++ map (enc p) gammas ++ map (enc p) betas ++ [enc p a]) (length xs + 2)%nat =
    Some (map (enc p) ys ++ [enc p mean; enc p inv]) ->
  length ys = length xs -> 0 <= inv < 2 ^ Z.of_nat nb ->
  Z.abs (zsum xs - n * mean) <= n -> - 2 ^ Z.of_nat nb <= mean < 2 ^ Z.of_nat nb ->
  zsum (map (fun x => q x * q x) xs) < 2 * (n * a * a) ->
  (forall i, (i < length xs)%nat -> let x := nth i xs 0 in let y := nth i ys 0 in
     - 2 ^ Z.of_nat (nb - 1) <= y < 2 ^ Z.of_nat nb - 2 ^ Z.of_nat (nb - 1) /\
     Z.abs ((x - mean) * inv) < a * 2 ^ Z.of_nat ds /\ - 2 ^ Z.of_nat mb <= q x < 2 ^ Z.of_nat mb /\
     Z.abs (y * a - (q x * nth i gammas 0 + nth i betas 0)) <= tol) ->
  run (honest_with G) (table_rowsb c F) (layer_norm_lane p c kappa nb mb gammas betas (map (enc p) xs)) = Some (map (enc p) ys).
Proof.
  intros Hp Hc a n R tol ds wt wm wv Hne Lg Lb W1 W2 W3 W4 W5 W6 W7 W8 B1 B2 B3 B4 B5 B6 B7 B8.
  assert (Et : tol = ln_tol kappa gammas) by (symmetry; apply ln_tol_max).
  assert (Pt : 0 <= tol) by (rewrite Et; apply (tol_pos kappa gammas)).
  assert (Pn : 1 <= n) by (unfold n; destruct xs; [congruence|cbn [length]; lia]).
  assert (Pa : 1 <= a) by (unfold a; pose proof (pow2_pos kappa) as Q; unfold pow2 in Q; lia).
  assert (Pv : 1 <= n * a * a) by (assert (1 * 1 <= n * a) by (apply Z.mul_le_mono_nonneg; lia); assert (1 * 1 <= n * a * a) by (apply Z.mul_le_mono_nonneg; lia); lia).
  assert (E1 : wt = np2_bits (2 * ln_tol kappa gammas + 1)) by (unfold wt; rewrite Et, np2_bits_log2_up; [reflexivity|rewrite <- Et; lia]).
  assert (E2 : wm = np2_bits (2 * n + 1)) by (unfold wm; rewrite np2_bits_log2_up; [reflexivity|lia]).
  assert (E3 : wv = np2_bits (2 * (n * a * a))) by (unfold wv; rewrite np2_bits_log2_up; [reflexivity|lia]).
  rewrite E1 in *. rewrite E2 in *. rewrite E3 in *. rewrite Et in *.
  intros q H0 HG LY HI HM HMb Hv Hall.
  apply (ln_run p Hp c Hc F kappa nb mb W1 W2 W3 W4 W5 gammas betas xs Lg Lb W6 W7 W8 G mean inv ys B1 B2 B3 B4 B5 B6 B7 B8 H0 HG LY HI HM HMb).
  - rewrite map_map. exact Hv.
  - intros i Hi. specialize (Hall i Hi). cbv zeta in Hall |- *.
    assert (En : nth i (map (fun X => (X - mean) * inv / pow2 kappa) xs) 0 = q (nth i xs 0)).
    { rewrite (nth_indep (map _ _) 0 ((fun X => (X - mean) * inv / pow2 kappa) 0)) by (rewrite map_length; auto).
      exact (map_nth (fun X => (X - mean) * inv / pow2 kappa) xs 0 i). }
    rewrite En. exact Hall.
Qed.

Lemma p97_applies : 2 ^ 18 * 2 ^ Z.of_nat (rounded 12 112) + 2 ^ Z.of_nat (rounded 12 18) <= bn254_r /\
  let q x := (x - 0) * 2 ^ 18 / 2 ^ 18 in
  zsum (map (fun x => q x * q x) [- 2 ^ 18; 2 ^ 18]) < 2 * (2 * 2 ^ 18 * 2 ^ 18) /\
  Z.abs (2 ^ 18 * 2 ^ 18 - (q (2 ^ 18) * 2 ^ 18 + 0)) <= 2 * fold_right Z.max 0 (map Z.abs [2 ^ 18; 2 ^ 18]) + 2 ^ 18 + 4.
Proof. split; [nle|]. split; [nlt|nle]. Qed.

(** ** C98  Softmax: accepted outputs *)

Lemma p98_softmax_sound p c tb kappa E nb xs ys K B :
  prime p -> (0 < c)%nat -> (2 <= tb)%nat -> width_ok c (tb / 2) -> width_ok c (kappa + 1) ->
  2 * 2 ^ Z.of_nat tb <= p -> 2 ^ Z.of_nat (rounded c (tb / 2)) <= p -> 2 ^ Z.of_nat (rounded c (kappa + 1)) <= p ->
  let a := 2 ^ Z.of_nat kappa in let n := Z.of_nat (length xs) in
  let R w := 2 ^ Z.of_nat (rounded c w) in
  let w2 := Z.to_nat (Z.log2_up (2 * (n * a))) in
  let w3 := Z.to_nat (Z.log2_up (2 * n + 1)) in
  xs <> [] -> width_ok c (tb - 1) -> width_ok c nb -> width_ok c w2 -> width_ok c w3 ->
  R (tb - 1)%nat <= p -> R nb <= p -> R w2 <= p -> n * R nb + a + n + 2 * R w3 < p ->
  (forall x x', In x xs -> In x' xs -> Z.abs (x - x') + 2 ^ Z.of_nat tb + R (tb - 1)%nat < p) ->
  a + 2 * R nb <= p -> E 0 = a -> (forall k, key tb k -> 0 <= table_exp tb E k <= B) ->
  2 * (R nb * (n * B + n * R (kappa + 1)%nat) + a * (n * B + R (kappa + 1)%nat + n * a + R w2)) < p ->
  R (kappa + 1)%nat <= K * a -> R w2 <= K * n * a -> 2 * n * K <= a ->
  accepts p (table_rows c (exp_tables p tb E)) (softmax_lane p c kappa nb tb (map (enc p) xs)) ys ->
  exists m Ys, In m xs /\ ys = map (enc p) Ys /\ length Ys = length xs /\
    Forall (fun y => - (R nb - 2 ^ Z.of_nat nb) <= y <= a + (R nb - 2 ^ Z.of_nat nb)) Ys /\
    Z.abs (zsum Ys - a) <= R w3 + n /\
    let S := zsum (map (fun x => table_exp tb E (x - m)) xs) in
    a * a <= S /\
    forall i, (i < length xs)%nat ->
      Z.abs (nth i Ys 0 * S - a * table_exp tb E (nth i xs 0 - m)) <= n * (8 * K + 1) * (a * a).
Proof.
  intros Hp Hc T1 T2 T3 T4 T5 T6 a n R w2 w3 Hne W1 W2 W3 W4 B1 B2 B3 B4 Hd.
  assert (Pn : 1 <= n) by (unfold n; destruct xs; [congruence|cbn [length]; lia]).
  assert (Pa : 1 <= a) by (unfold a; pose proof (pow2_pos kappa) as Q; unfold pow2 in Q; lia).
  assert (Pna : 1 * 1 <= n * a) by (apply Z.mul_le_mono_nonneg; lia).
  assert (Hl : length xs <> 0%nat) by (destruct xs; [congruence|discriminate]).
  assert (E1 : w2 = np2_bits (2 * (n * a))) by (unfold w2; rewrite np2_bits_log2_up; [reflexivity|lia]).
  assert (E2 : w3 = np2_bits (2 * n + 1)) by (unfold w3; rewrite np2_bits_log2_up; [reflexivity|lia]).
  rewrite E1 in *. rewrite E2 in *.
  intros B5 HE HB S1 K1 K2 K3 H.
  assert (T7 : pow2 (rounded c (tb - 1)) <= p) by exact B1.
  destruct (softmax_sound p Hp c Hc tb kappa E T1 T2 T3 T4 T5 T6 W1 T7 nb xs W2 W3 W4 B2 B3 B4 B5 Hd ys K B Hl HE HB S1 K1 K2 K3 H)
    as (M & Ys & A1 & A2 & A3 & A4 & A5 & A7 & A6).
  exists M, Ys. split; [exact A1|]. split; [exact A2|]. split; [exact A3|]. split.
  - eapply Forall_impl; [|exact A4]. cbn beta. unfold pow2, zn, R, a. intros y Hy. lia.
  - split; [exact A5|]. split; [exact A7|exact A6].
Qed.

Lemma p98_applies : forall E, E 0 = 2 ^ 18 -> (forall k, 0 <= E k <= 2 ^ 64) -> prime bn254_r /\ width_ok 12 (24 / 2) /\ width_ok 12 (18 + 1) /\
  2 * 2 ^ Z.of_nat 24 <= bn254_r /\ 2 ^ Z.of_nat (rounded 12 (24 / 2)) <= bn254_r /\ 2 ^ Z.of_nat (rounded 12 (18 + 1)) <= bn254_r /\
  width_ok 12 (24 - 1) /\ Z.log2_up (2 * (10 * 2 ^ 18)) = 23 /\ width_ok 12 23 /\
  Z.log2_up (2 * 10 + 1) = 5 /\ width_ok 12 5 /\ (forall k, 0 <= table_exp 24 E k <= 2 ^ 128) /\
  2 * (2 ^ Z.of_nat (rounded 12 64) * (10 * 2 ^ 128 + 10 * 2 ^ Z.of_nat (rounded 12 19)) + 2 ^ 18 * (10 * 2 ^ 128 + 2 ^ Z.of_nat (rounded 12 19) + 10 * 2 ^ 18 + 2 ^ Z.of_nat (rounded 12 23))) < bn254_r /\
  2 ^ Z.of_nat (rounded 12 19) <= 64 * 2 ^ 18 /\ 2 ^ Z.of_nat (rounded 12 23) <= 64 * 10 * 2 ^ 18 /\ 2 * 10 * 64 <= 2 ^ 18.
Proof. intros E H0 HE. split; [exact bn254_prime|]. split; [w12|]. split; [w12|]. split; [nle|]. split; [nle|]. split; [nle|]. split; [w12|]. split; [reflexivity|]. split; [w12|]. split; [reflexivity|]. split; [w12|]. split; [|split; [nlt|split; [nle|split; nle]]].
  intros k. unfold table_exp. pose proof (HE (k / 2 ^ Z.of_nat (24 / 2) * 2 ^ Z.of_nat (24 / 2))). pose proof (HE (k mod 2 ^ Z.of_nat (24 / 2))).
  change (2 ^ 128) with (2 ^ 64 * 2 ^ 64). split; [apply Z.mul_nonneg_nonneg; lia|apply Z.mul_le_mono_nonneg; lia]. Qed.

(** ** C99  Softmax: the honest prover *)

Lemma p99_softmax_complete_refuted E ys :
  ~ accepts bn254_r (table_rows 12 (exp_tables bn254_r 24 E))
      (softmax_lane bn254_r 12 18 64 24 (map (enc bn254_r) [0; - 33 * 2 ^ 18])) ys.
Proof.
  assert (Hno : forall M, In M [0; - 33 * 2 ^ 18] -> (forall A, In A [0; - 33 * 2 ^ 18] -> exp_in 24 (A - M)) -> False).
  { intros M HM Hall. unfold exp_in in Hall. change (pow2 (24 - 1)) with 8388608 in Hall.
    destruct HM as [<-|[<-|[]]]; [specialize (Hall (- 33 * 2 ^ 18) (or_intror (or_introl eq_refl)))|specialize (Hall 0 (or_introl eq_refl))];
      revert Hall; vm_compute; intros [H1 H2]; congruence. }
  intros H.
  apply (softmax_rel bn254_r bn254_prime 12 ltac:(lia) 24 18 E ltac:(lia) ltac:(w12) ltac:(w12) ltac:(nle) ltac:(nle) ltac:(nle) ltac:(w12) ltac:(nle)
    64 [0; - 33 * 2 ^ 18] ltac:(w12) ltac:(w12) ltac:(w12) ltac:(nle) ltac:(nle) ltac:(nlt) ltac:(nle)) in H.
  - destruct H as (M & _ & _ & _ & HM & Hall & _). apply (Hno M HM). intros A HA. apply Hall. exact HA.
  - intros A B HA HB. destruct HA as [<-|[<-|[]]]; destruct HB as [<-|[<-|[]]]; nlt.
  - discriminate.
  - intros M HM Hall. destruct (Hno M HM Hall).
Qed.

Lemma p99_softmax_complete_partial p c tb kappa E G nb xs m ns rest :
  prime p -> (0 < c)%nat -> (2 <= tb)%nat -> width_ok c (tb / 2) -> width_ok c (kappa + 1) ->
  2 * 2 ^ Z.of_nat tb <= p -> 2 ^ Z.of_nat (rounded c (tb / 2)) <= p -> 2 ^ Z.of_nat (rounded c (kappa + 1)) <= p ->
  let a := 2 ^ Z.of_nat kappa in let n := Z.of_nat (length xs) in
  let R w := 2 ^ Z.of_nat (rounded c w) in
  let w2 := Z.to_nat (Z.log2_up (2 * (n * a))) in
  let w3 := Z.to_nat (Z.log2_up (2 * n + 1)) in
  xs <> [] -> width_ok c (tb - 1) -> width_ok c nb -> width_ok c w2 -> width_ok c w3 ->
  R (tb - 1)%nat <= p -> R nb <= p -> R w2 <= p -> n * R nb + a + n + 2 * R w3 < p ->
  (forall x x', In x xs -> In x' xs -> Z.abs (x - x') + 2 ^ Z.of_nat tb + R (tb - 1)%nat < p) ->
  let e x := table_exp tb E (x - m) / a in
  E 0 = a -> (kappa < nb)%nat -> In m xs ->
  (forall x, In x xs -> x <= m /\ m - x < 2 ^ Z.of_nat (tb - 1)) ->
  (forall x, In x xs -> 0 <= table_exp tb E (x - m) <= a * a) -> a * a < p ->
  answers_exp p tb a E G ->
  G 20%nat (map (enc p) xs ++ [enc p a]) (2 * length xs + 1)%nat = Some (map (enc p) ns ++ enc p m :: rest) ->
  length rest = length xs ->
  Forall2 (fun x k => nearest_quotient (e x * a) (zsum (map e xs)) k) xs ns ->
  run (honest_with G) (table_rowsb c (exp_tables p tb E)) (softmax_lane p c kappa nb tb (map (enc p) xs)) = Some (map (enc p) ns).
Proof.
  intros Hp Hc T1 T2 T3 T4 T5 T6 a n R w2 w3 Hne W1 W2 W3 W4 B1 B2 B3 B4 Hd.
  assert (Pn : 1 <= n) by (unfold n; destruct xs; [congruence|cbn [length]; lia]).
  assert (Pa : 1 <= a) by (unfold a; pose proof (pow2_pos kappa) as Q; unfold pow2 in Q; lia).
  assert (Pna : 1 * 1 <= n * a) by (apply Z.mul_le_mono_nonneg; lia).
  assert (Hl : length xs <> 0%nat) by (destruct xs; [congruence|discriminate]).
  assert (E1 : w2 = np2_bits (2 * (n * a))) by (unfold w2; rewrite np2_bits_log2_up; [reflexivity|lia]).
  assert (E2 : w3 = np2_bits (2 * n + 1)) by (unfold w3; rewrite np2_bits_log2_up; [reflexivity|lia]).
  rewrite E1 in *. rewrite E2 in *.
  intros e HE Hk Hm Hmax HP Hss HG1 HG Lr HN.
  assert (T7 : pow2 (rounded c (tb - 1)) <= p) by exact B1.
  exact (softmax_run p Hp c Hc tb kappa E G T1 T2 T3 T4 T5 T6 W1 T7 nb xs W2 W3 W4 B2 B3 B4 Hd m ns rest Hl HE Hk Hm Hmax HP Hss HG1 HG Lr HN).
Qed.

Lemma p99_applies : prime bn254_r /\ width_ok 12 (24 / 2) /\ width_ok 12 (18 + 1) /\
  2 * 2 ^ Z.of_nat 24 <= bn254_r /\ 2 ^ Z.of_nat (rounded 12 (24 / 2)) <= bn254_r /\ 2 ^ Z.of_nat (rounded 12 (18 + 1)) <= bn254_r /\
  width_ok 12 (24 - 1) /\ width_ok 12 64 /\ width_ok 12 20 /\ width_ok 12 3 /\ Z.log2_up (2 * (2 * 2 ^ 18)) = 20 /\
  Forall2 (fun x k => nearest_quotient (x * 2 ^ 18) (2 ^ 18 + 96437) k) [2 ^ 18; 96437] [191643; 70501].
Proof. split; [exact bn254_prime|]. split; [w12|]. split; [w12|]. split; [nle|]. split; [nle|]. split; [nle|]. do 4 (split; [w12|]). split; [reflexivity|]. repeat constructor; unfold nearest_quotient; nle. Qed.
